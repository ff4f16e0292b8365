From Verif Require Import Base.
From Coq Require Import String.
From Verif Require Import UvModel UvSpec UvProofs UvProofs2.
Ltac Zify.zify_post_hook ::= idtac.
Open Scope Z_scope.

(* one writer step: the stream grows by entries that end no record *)
Definition steps (w : writer) (L : list srec) (w' : writer) (seg : list srec) : Prop :=
  WI w' (L ++ seg) /\ no_eor seg /\ extends w w'.

Lemma no_eor_app a b : no_eor a -> no_eor b -> no_eor (a ++ b).
Proof. unfold no_eor. intros A B H. apply in_app_or in H as [H|H]; auto. Qed.

Lemma steps_refl w L : WI w L -> steps w L w [].
Proof. intros. split; [now rewrite app_nil_r|]. split; [intros []|apply extends_refl]. Qed.

Lemma steps_trans w L w1 s1 w2 s2 : steps w L w1 s1 -> steps w1 (L ++ s1) w2 s2 -> steps w L w2 (s1 ++ s2).
Proof.
  intros (A & B & C) (D & E & F). split; [now rewrite app_assoc|]. split; [now apply no_eor_app|].
  eapply extends_trans; eauto.
Qed.

Lemma put_steps w L t n bs : WI w L -> (String.length n <= 8)%nat -> has w n = None \/ has w n = Some t ->
  0 < zlen bs < 2147483648 -> zlen bs mod ext t = 0 ->
  exists w' seg, uvputvr w t n bs = Ok w' /\ steps w L w' seg /\
  w_init w' = w_init w /\ w_flags w' = w_flags w /\
  (forall m, getp w' (L ++ seg) m = if String.eqb n m then Some (t, bs) else getp w L m) /\
  (forall m, m <> n -> getb w' m = getb w m) /\
  (forall m, has w' m = if String.eqb n m then Some t else has w m) /\
  (forall b, getb w n = Some (true, b) -> getb w' n = Some (true, b)) /\
  ((exists b, getb w n = Some (true, b)) \/ getp w L n <> Some (t, bs) ->
     exists i, fnd n (wnames w') = Some i /\ In (SData i t bs) seg) /\
  (forall f b, getb w n = Some (f, b) -> exists f' b', getb w' n = Some (f', b') /\ (b' = b \/ b' = Some bs)) /\
  (getb w n = None \/ getb w n = Some (false, None) -> exists f', getb w' n = Some (f', Some bs)) /\
  (forall m, m <> n -> getl w' m = getl w m) /\ getl w' n = zlen bs.
Proof.
  intros H1 H2 H3 H4 H5. destruct (put_name w L t n bs H1 H2 H3 H4 H5) as (w' & seg & P).
  unfold put_post in P. exists w', seg. unfold steps. intuition.
Qed.

Ltac rtyt := repeat match goal with |- _ /\ _ => split end; let X := fresh in intros X; try discriminate X; auto.

Section Host.
Variable feq8 feq4 : list Z -> list Z -> bool.
Variable add1000 addf1000 : list Z -> list Z.
Variable junk : list Z.
Variable corrty : ty.
Hypothesis corrty_ok : corrty = TReal \/ corrty = TInt2.
Hypothesis sym8 : forall a b, feq8 a b = true -> feq8 b a = true.
Hypothesis sym4 : forall a b, feq4 a b = true -> feq4 b a = true.
Hypothesis trans8 : forall a b c, feq8 a b = true -> feq8 b c = true -> feq8 a c = true.
Hypothesis trans4 : forall a b c, feq4 a b = true -> feq4 b c = true -> feq4 a c = true.

Notation same8 := (same8 feq8).
Notation same4 := (same4 feq4).
Notation uvwrite := (uvwrite feq8 feq4 add1000 addf1000 junk corrty).
Notation uvwrite_init := (uvwrite_init add1000 addf1000 junk corrty).

Definition same24 a b := same8 (d0 a) (d0 b) /\ same8 (d1 a) (d1 b) /\ same8 (d2 a) (d2 b).
Definition sameP (n : string) a b : Prop :=
  (n = "coord"%string -> same24 a b) /\ (n = "time"%string -> same8 a b) /\ (n = "baseline"%string -> same4 a b).

Lemma same8_refl a : same8 a a. Proof. left; auto. Qed.
Lemma same4_refl a : same4 a a. Proof. left; auto. Qed.
Lemma same8_trans a b c : feq8 a b = true -> same8 b c -> same8 a c.
Proof. intros H [->|[K|K]]; right; left; eauto. Qed.
Lemma same4_trans a b c : feq4 a b = true -> same4 b c -> same4 a c.
Proof. intros H [->|[K|K]]; right; left; eauto. Qed.

(* the change test of each preamble variable *)
Notation eqP := (pre_eq feq8 feq4).
Definition pre_len (n : string) : nat :=
  if String.eqb n "coord" then 24%nat else if String.eqb n "time" then 8%nat else 4%nat.

Lemma sameP_refl n a : sameP n a a.
Proof.
  split; [|split]; intros _; [split; [|split]; apply same8_refl|apply same8_refl|apply same4_refl].
Qed.

Lemma eqP_same n b a c : preamble_name n -> eqP n b a = true -> sameP n b c -> sameP n a c.
Proof.
  intros Hn H (A & B & C). unfold pre_eq in H.
  destruct Hn as [->|[->| ->]]; cbn in H; (split; [|split]); intros X; try discriminate X.
  - apply andb_true_iff in H as [H H3]. apply andb_true_iff in H as [H1 H2].
    destruct (A eq_refl) as (A1 & A2 & A3). split; [|split]; eapply same8_trans; eauto.
  - eapply same8_trans; eauto.
  - eapply same4_trans; eauto.
Qed.

Lemma eqP_sameba n b a : preamble_name n -> eqP n b a = true -> sameP n b a.
Proof.
  intros Hn H. unfold pre_eq in H.
  destruct Hn as [->|[->| ->]]; cbn in H; (split; [|split]); intros X; try discriminate X.
  - apply andb_true_iff in H as [H H3]. apply andb_true_iff in H as [H1 H2].
    split; [|split]; right; left; auto.
  - right; right; auto.
  - right; right; auto.
Qed.

Lemma eqP_tri n b a c : preamble_name n -> eqP n b a = true -> eqP n b c = true -> eqP n a c = true.
Proof.
  intros Hn H K. unfold pre_eq in *.
  destruct Hn as [->|[->| ->]]; cbn in *.
  - apply andb_true_iff in H as [H H3]. apply andb_true_iff in H as [H1 H2].
    apply andb_true_iff in K as [K K3]. apply andb_true_iff in K as [K1 K2].
    rewrite (trans8 _ _ _ (sym8 _ _ H1) K1), (trans8 _ _ _ (sym8 _ _ H2) K2), (trans8 _ _ _ (sym8 _ _ H3) K3). reflexivity.
  - exact (trans8 _ _ _ K (sym8 _ _ H)).
  - exact (trans4 _ _ _ K (sym4 _ _ H)).
Qed.

(* reserved variables have fixed types *)
Definition rty (n : string) (t : ty) : Prop :=
  (n = "coord"%string -> t = TDble) /\ (n = "time"%string -> t = TDble) /\
  (n = "baseline"%string -> t = TReal) /\ (n = "nchan"%string -> t = TInt) /\
  (n = "tscale"%string -> t = TReal) /\ (n = "corr"%string -> t = corrty).

Record SI (prev : option urec) (e : env) (set : list (string * list Z)) (w : writer) (L : list srec) : Prop := {
  S_wi : WI w L;
  S_has : forall n, n <> "corr"%string -> has w n = option_map fst (look e n);
  S_hasc : has w "corr" = Some corrty;
  S_ty : forall n t b, look e n = Some (t, b) -> rty n t;
  S_val : forall n t b, look e n = Some (t, b) ->
     exists c, getp w L n = Some (t, c) /\ (~ preamble_name n \/ In n (map fst set) -> c = b) /\
               sameP n b c /\ (preamble_name n -> List.length c = pre_len n);
  S_init : w_init w = match prev with None => false | Some _ => true end;
  S_first : prev = None -> getl w "corr" = 0 /\
     forall n, preamble_name n ->
       (~ In n (map fst set) -> getb w n = None \/ getb w n = Some (false, None)) /\
       (In n (map fst set) -> exists f b, getb w n = Some (f, Some b) /\ In (n, b) set);
  S_later : forall q, prev = Some q ->
     (exists b, getb w "corr" = Some (true, b)) /\
     (exists b, look e "corr" = Some (corrty, b)) /\ numchan corrty (getl w "corr") = r_n q /\
     forall n, preamble_name n -> look e n <> None /\
       exists b, getb w n = Some (true, Some b) /\
         (b = pre_val n q \/ eqP n b (pre_val n q) = true) /\
         (~ In n (map fst set) -> forall t c, getp w L n = Some (t, c) -> sameP n b c) }.

(* ---------- a preamble variable inside uvwrite ---------- *)
Lemma pre_write w L n t a b :
  WI w L -> (String.length n <= 8)%nat -> has w n = Some t -> getb w n = Some (true, Some b) ->
  0 < zlen a < 2147483648 -> zlen a mod ext t = 0 ->
  let cond := negb (eqP n b a) in
  exists w' seg,
    (if cond then bind (uvputvr w t n a) (fun w => Ok (set_buf w n a)) else Ok w) = Ok w' /\
    steps w L w' seg /\ w_init w' = w_init w /\ w_flags w' = w_flags w /\
    (forall m, m <> n -> getp w' (L ++ seg) m = getp w L m) /\
    getp w' (L ++ seg) n = (if cond then Some (t, a) else getp w L n) /\
    (forall m, m <> n -> getb w' m = getb w m) /\
    getb w' n = Some (true, Some (if cond then a else b)) /\
    (forall m, has w' m = has w m) /\ (forall m, m <> n -> getl w' m = getl w m).
Proof.
  intros H Hn Ht Hb Hl Hm cond. destruct cond eqn:C.
  - destruct (put_steps w L t n a H Hn (or_intror Ht) Hl Hm)
      as (w1 & seg & E & S & I & F & P & B & T & B' & _ & _ & _ & GL & _).
    rewrite E. cbn [bind].
    destruct (set_buf_views w1 (L ++ seg) n a) as (A1 & A2 & A3 & A4 & A5 & A6 & A7 & A8 & A9).
    { apply S. } { eauto. }
    exists (set_buf w1 n a), seg. split; [reflexivity|]. split.
    { destruct S as (S1 & S2 & S3). split; [auto|]. split; [auto|]. eapply extends_trans; eauto. }
    split; [congruence|]. split; [congruence|]. split; [|split; [|split; [|split; [|split]]]].
    + intros m Hmn. rewrite A3, P. replace (String.eqb n m) with false; auto.
      symmetry; apply String.eqb_neq; auto.
    + rewrite A3, P, String.eqb_refl. auto.
    + intros m Hmn. rewrite A5 by auto. auto.
    + auto.
    + intros m. rewrite A4, T. destruct (String.eqb n m) eqn:Q; auto. apply String.eqb_eq in Q; subst; auto.
    + intros m Hmn. rewrite A9. auto.
  - exists w, []. split; [reflexivity|]. split; [now apply steps_refl|]. rewrite app_nil_r.
    repeat split; auto.
Qed.

Lemma init_pre_views w L n t b : WI w L -> (String.length n <= 8)%nat ->
  has w n = None \/ has w n = Some t ->
  exists vs, init_pre (w_vars w) n t b = Ok vs /\
    let w' := withvs w vs in
    WI w' L /\ extends w w' /\ (forall m, getp w' L m = getp w L m) /\
    (forall m, has w' m = if String.eqb n m then Some t else has w m) /\
    (forall m, m <> n -> getb w' m = getb w m) /\
    getb w' n = Some (true, Some (match getb w n with Some (_, Some b0) => b0 | _ => b end)) /\
    (forall m, getl w' m = getl w m).
Proof.
  intros H Hn Ht.
  destruct (mk_views w L n t (fun o => Some (match o with Some b0 => b0 | None => b end)) H Hn Ht)
    as (i & v & vs & E & Hv & A).
  unfold init_pre. rewrite E. cbn [bind fst snd]. rewrite Hv.
  eexists; split; [reflexivity|]. cbn zeta in *.
  destruct A as (A1 & A2 & A3 & A4 & A5 & A6 & A7). repeat (split; [assumption|]). split; [|exact A7].
  rewrite A6. destruct (getb w n) as [[? [?|]]|]; reflexivity.
Qed.


Ltac seq := repeat match goal with
  | |- context [String.eqb ?a ?b] => let r := eval vm_compute in (String.eqb a b) in
       lazymatch r with true => change (String.eqb a b) with true
                      | false => change (String.eqb a b) with false end; cbn iota
  end.

Lemma init_views prev e set w L r : SI prev e set w L ->
  exists w', uvwrite_init w r = Ok w' /\ WI w' L /\ extends w w' /\ w_init w' = true /\
    w_flags w' = w_flags w /\ (forall m, getp w' L m = getp w L m) /\ (forall m, getl w' m = getl w m) /\
    (forall m, has w' m = if in_dec string_dec m ["corr"; "coord"; "time"; "baseline"]%string
                          then (if string_dec m "corr" then Some corrty
                                else if string_dec m "baseline" then Some TReal else Some TDble)
                          else has w m) /\
    (exists b, getb w' "corr" = Some (true, b)) /\
    (forall n, preamble_name n -> exists b, getb w' n = Some (true, Some b) /\
       (prev <> None -> getb w n = Some (true, Some b)) /\
       (prev = None -> In n (map fst set) -> In (n, b) set) /\
       (prev = None -> ~ In n (map fst set) ->
          (n = "coord"%string -> b = add1000 (r_u r) ++ junk) /\
          (n = "time"%string -> b = add1000 (r_w r)) /\
          (n = "baseline"%string -> b = addf1000 (r_t r)))).
Proof.
  intros S. pose proof (S_wi _ _ _ _ _ S) as H.
  assert (HT : forall n t, n <> "corr"%string -> rty n t -> (forall t', rty n t' -> t' = t) -> has w n = None \/ has w n = Some t).
  { intros n t NC R U. rewrite (S_has _ _ _ _ _ S) by auto. destruct (look e n) as [[t' b]|] eqn:E; [right|left; auto].
    cbn. f_equal. apply U. eapply (S_ty _ _ _ _ _ S); eauto. }
  assert (Tcorr : has w "corr" = None \/ has w "corr" = Some corrty).
  { right. apply (S_hasc _ _ _ _ _ S). }
  assert (Tcoord : has w "coord" = None \/ has w "coord" = Some TDble).
  { apply HT; [discriminate|unfold rty; rtyt|]. intros t' (R1 & R2 & R3 & R4 & R5 & R6); auto. }
  assert (Ttime : has w "time" = None \/ has w "time" = Some TDble).
  { apply HT; [discriminate|unfold rty; rtyt|]. intros t' (R1 & R2 & R3 & R4 & R5 & R6); auto. }
  assert (Tbl : has w "baseline" = None \/ has w "baseline" = Some TReal).
  { apply HT; [discriminate|unfold rty; rtyt|]. intros t' (R1 & R2 & R3 & R4 & R5 & R6); auto. }
  pose proof (S_init _ _ _ _ _ S) as Hi. unfold UvModel.uvwrite_init. rewrite Hi.
  destruct prev as [q|]; cbn [negb].
  2:{ destruct (S_first _ _ _ _ _ S eq_refl) as (F1 & F3).
    destruct (mk_views w L "corr" corrty (fun o => o) H ltac:(cbn; lia) Tcorr) as (i & v & vs & E & Hv & A).
    rewrite E. cbn [bind fst snd]. rewrite Hv. cbn zeta in A.
    set (wa := withvs w (setv vs i true (w_buf v))) in *. destruct A as (A1 & A2 & A3 & A4 & A5 & A6 & A7).
    destruct (init_pre_views wa L "coord" TDble (add1000 (r_u r) ++ junk) A1 ltac:(cbn; lia))
      as (vb & Eb & B1 & B2 & B3 & B4 & B5 & B6 & B7).
    { rewrite A4. seq. auto. }
    change (w_vars wa) with (setv vs i true (w_buf v)) in Eb. rewrite Eb. cbn [bind].
    set (wb := withvs wa vb) in *.
    destruct (init_pre_views wb L "time" TDble (add1000 (r_w r)) B1 ltac:(cbn; lia))
      as (vc & Ec & C1 & C2 & C3 & C4 & C5 & C6 & C7).
    { rewrite B4, A4. seq. auto. }
    change (w_vars wb) with vb in Ec. rewrite Ec. cbn [bind].
    set (wc := withvs wb vc) in *.
    destruct (init_pre_views wc L "baseline" TReal (addf1000 (r_t r)) C1 ltac:(cbn; lia))
      as (vd & Ed & D1 & D2 & D3 & D4 & D5 & D6 & D7).
    { rewrite C4, B4, A4. seq. auto. }
    change (w_vars wc) with vc in Ed. rewrite Ed. cbn [bind].
    set (wd := withvs wc vd) in *.
    set (w' := Wr vd (w_off w) (w_file w) true (w_flags w)).
    assert (V : (forall m, getp w' L m = getp wd L m) /\ (forall m, getb w' m = getb wd m) /\
                (forall m, has w' m = has wd m) /\ WI w' L /\ extends w w').
    { split; [reflexivity|]. split; [reflexivity|]. split; [reflexivity|]. split.
      - destruct D1. constructor; auto.
      - assert (X : extends w wd) by (repeat (eapply extends_trans; [eassumption|]); apply extends_refl).
        exact X. }
    destruct V as (V1 & V2 & V3 & V4 & V5).
    exists w'. split; [reflexivity|]. split; [auto|]. split; [auto|]. split; [reflexivity|].
    split; [reflexivity|]. split; [intros m; rewrite V1, D3, C3, B3, A3; auto|].
    split; [intros m; transitivity (getl wd m); [reflexivity|]; rewrite D7, C7, B7; apply A7|].
    split; [|split].
    + intros m. rewrite V3, D4, C4, B4, A4.
      destruct (in_dec string_dec m _) as [I|I].
      * destruct I as [<-|[<-|[<-|[<-|[]]]]]; reflexivity.
      * cbn in I. destruct (String.eqb "baseline" m) eqn:Q1; [apply String.eqb_eq in Q1; exfalso; tauto|].
        destruct (String.eqb "time" m) eqn:Q2; [apply String.eqb_eq in Q2; exfalso; tauto|].
        destruct (String.eqb "coord" m) eqn:Q3; [apply String.eqb_eq in Q3; exfalso; tauto|].
        destruct (String.eqb "corr" m) eqn:Q4; [apply String.eqb_eq in Q4; exfalso; tauto|]. auto.
    + eexists. rewrite V2, D5, C5, B5 by discriminate. exact A6.
    + intros n Hn.
      destruct (F3 n Hn) as [F3a F3b].
      destruct Hn as [->|[->| ->]].
      * eexists. rewrite V2, D5, C5 by discriminate. split; [exact B6|]. split; [congruence|].
        split; intros _ X; rewrite A5 by discriminate; [destruct (F3b X) as (f & b0 & -> & Y); exact Y|].
        destruct (F3a X) as [-> | ->]; rtyt.
      * eexists. rewrite V2, D5 by discriminate. split; [exact C6|]. split; [congruence|].
        split; intros _ X; rewrite B5, A5 by discriminate; [destruct (F3b X) as (f & b0 & -> & Y); exact Y|].
        destruct (F3a X) as [-> | ->]; rtyt.
      * eexists. rewrite V2. split; [exact D6|]. split; [congruence|].
        split; intros _ X; rewrite C5, B5, A5 by discriminate; [destruct (F3b X) as (f & b0 & -> & Y); exact Y|].
        destruct (F3a X) as [-> | ->]; rtyt. }
  - destruct (S_later _ _ _ _ _ S q eq_refl) as (F1 & (b & F2) & F3 & F4).
    exists w. split; [reflexivity|]. split; [auto|]. split; [apply extends_refl|]. split; [auto|].
    split; [auto|]. split; [auto|]. split; [auto|]. split; [|split; [auto|]].
    + intros m. destruct (in_dec string_dec m _) as [I|I]; auto.
      destruct I as [<-|[<-|[<-|[<-|[]]]]]; [apply (S_hasc _ _ _ _ _ S)|..];
        rewrite (S_has _ _ _ _ _ S) by discriminate.
      * destruct (F4 "coord"%string (or_introl eq_refl)) as [X _].
        destruct (look e "coord") as [[t c]|] eqn:E; [|congruence]. cbn.
        apply (S_ty _ _ _ _ _ S) in E. destruct E as (E & _). rewrite E; auto.
      * destruct (F4 "time"%string (or_intror (or_introl eq_refl))) as [X _].
        destruct (look e "time") as [[t c]|] eqn:E; [|congruence]. cbn.
        apply (S_ty _ _ _ _ _ S) in E. destruct E as (_ & E & _). rewrite E; auto.
      * destruct (F4 "baseline"%string (or_intror (or_intror eq_refl))) as [X _].
        destruct (look e "baseline") as [[t c]|] eqn:E; [|congruence]. cbn.
        apply (S_ty _ _ _ _ _ S) in E. destruct E as (_ & _ & E & _). rewrite E; auto.
    + intros n Hn. destruct (F4 n Hn) as (_ & b' & X & _). exists b'. split; [auto|]. split; [auto|split; discriminate].
Qed.

Lemma next_views w L : WI w L ->
  WI (uvnext w) (L ++ [SEor]) /\ extends w (uvnext w) /\
  (forall m, getp (uvnext w) (L ++ [SEor]) m = getp w L m) /\
  (forall m, has (uvnext w) m = has w m) /\ (forall m, getb (uvnext w) m = getb w m) /\
  w_init (uvnext w) = w_init w /\ w_flags (uvnext w) = w_flags w /\ (forall m, getl (uvnext w) m = getl w m).
Proof.
  intros H. assert (EP : PP (L ++ [SEor]) = PP L) by (now rewrite pplay_app).
  assert (EL : LL (L ++ [SEor]) = LL L) by (now rewrite lplay_app).
  split; [|split; [|split; [|split; [|split; [|split; [|split]]]]]]; try reflexivity; auto.
  - constructor; rewrite ?EP, ?EL; cbn [uvnext w_file w_off w_vars].
    + apply enc_app. exists (w_off w). split; [apply enc_put0; [apply (W_enc _ _ H)|lia]|].
      cbn [enc enc1 next_off]. split; [apply bytes_put|reflexivity].
    + apply (W_nodup _ _ H).
    + apply wf_app. split; [apply (W_wf _ _ H)|]. cbn; auto.
    + apply (W_dom _ _ H).
    + apply (W_len _ _ H).
    + apply (W_chk _ _ H).
    + apply (W_call _ _ H).
  - exists [], []. now rewrite !app_nil_r.
  - intros m. unfold getp. now rewrite EP.
Qed.

Lemma d012 r : List.length (r_u r) = 8%nat -> List.length (r_v r) = 8%nat -> List.length (r_w r) = 8%nat ->
  d0 (uvw r) = r_u r /\ d1 (uvw r) = r_v r /\ d2 (uvw r) = r_w r /\ List.length (uvw r) = 24%nat.
Proof.
  intros A B C. unfold d0, d1, d2, uvw.
  repeat split.
  - rewrite firstn_app, A. cbn [Nat.sub]. rewrite firstn_O, app_nil_r. rewrite firstn_all2; auto; lia.
  - rewrite skipn_app, A. cbn [Nat.sub]. rewrite skipn_O. rewrite skipn_all2 by lia. cbn [app].
    rewrite firstn_app, B. cbn [Nat.sub]. rewrite firstn_O, app_nil_r. rewrite firstn_all2; auto; lia.
  - rewrite app_assoc. rewrite skipn_app, skipn_all2 by (rewrite app_length; lia). cbn [app].
    rewrite app_length, A, B. cbn [Nat.add Nat.sub]. rewrite skipn_O. rewrite firstn_all2; auto; lia.
  - rewrite !app_length. lia.
Qed.

(* everything uvwrite needs to know about one preamble variable before writing it *)
Definition pre_in (n : string) (r : urec) (w : writer) (L : list srec) : Prop :=
  exists b, has w n = Some (pre_ty n) /\ getb w n = Some (true, Some b) /\
    (eqP n b (pre_val n r) = false \/
     exists c, getp w L n = Some (pre_ty n, c) /\ (c = pre_val n r \/ sameP n b c) /\
       List.length c = pre_len n).
Definition pre_out (n : string) (r : urec) (w : writer) (L : list srec) : Prop :=
  exists b c, has w n = Some (pre_ty n) /\ getb w n = Some (true, Some b) /\
    getp w L n = Some (pre_ty n, c) /\ sameP n (pre_val n r) c /\ sameP n b c /\
    List.length c = pre_len n /\ (b = pre_val n r \/ eqP n b (pre_val n r) = true).

Lemma pre_in_keep n r w L w' L' : getp w' L' n = getp w L n -> getb w' n = getb w n -> has w' n = has w n ->
  pre_in n r w L -> pre_in n r w' L'.
Proof. intros A B C (b & H). exists b. rewrite A, B, C. exact H. Qed.
Lemma pre_out_keep n r w L w' L' : getp w' L' n = getp w L n -> getb w' n = getb w n -> has w' n = has w n ->
  pre_out n r w L -> pre_out n r w' L'.
Proof. intros A B C (b & c & H). exists b, c. rewrite A, B, C. exact H. Qed.

Lemma pre_do n r w L nsize : WI w L -> preamble_name n -> good_rec corrty nsize r ->
  pre_in n r w L ->
  exists w' seg,
    (if negb (eqP n (buf_of w n) (pre_val n r))
     then bind (uvputvr w (pre_ty n) n (pre_val n r)) (fun w => Ok (set_buf w n (pre_val n r))) else Ok w) = Ok w' /\
    steps w L w' seg /\ w_init w' = w_init w /\ w_flags w' = w_flags w /\
    pre_out n r w' (L ++ seg) /\
    (forall m, m <> n -> getp w' (L ++ seg) m = getp w L m /\ getb w' m = getb w m) /\
    (forall m, has w' m = has w m) /\ (forall m, m <> n -> getl w' m = getl w m).
Proof.
  intros H Hn G (b & Ht & Hb & P).
  destruct G as (G1 & G2 & G3 & G4 & G5 & _).
  destruct (d012 r G1 G2 G3) as (D0 & D1 & D2 & DL).
  rewrite (buf_of_getb _ _ _ Hb).
  assert (HL : 0 < zlen (pre_val n r) < 2147483648 /\ zlen (pre_val n r) mod ext (pre_ty n) = 0 /\ (String.length n <= 8)%nat
            /\ List.length (pre_val n r) = pre_len n).
  { destruct Hn as [->|[->| ->]]; cbn [pre_val pre_ty String.eqb Ascii.eqb Bool.eqb];
      unfold pre_val, pre_ty, pre_len; cbn; unfold zlen; [rewrite DL|rewrite G4|rewrite G5]; cbn; repeat split; lia. }
  destruct HL as (HL1 & HL2 & HL3 & HL4).
  destruct (pre_write w L n (pre_ty n) (pre_val n r) b H HL3 Ht Hb HL1 HL2)
    as (w' & seg & E & S & I & F & Q1 & Q2 & Q3 & Q4 & Q5 & Q6).
  exists w', seg. split; [exact E|]. split; [auto|]. split; [auto|]. split; [auto|].
  split; [|split; [intros m Hm; split; auto|split; auto]].
  unfold pre_out. rewrite Q5, Q4, Q2. destruct (eqP n b (pre_val n r)) eqn:EQ; cbn [negb].
  - destruct P as [P|(c & C1 & C2 & C3)]; [discriminate|]. exists b, c.
    split; [exact Ht|]. split; [reflexivity|]. split; [exact C1|].
    assert (SP : sameP n b c) by (destruct C2 as [->|C2]; [now apply eqP_sameba|exact C2]).
    split; [eapply eqP_same; eauto|]. split; [exact SP|]. split; [exact C3|]. right; auto.
  - exists (pre_val n r), (pre_val n r). split; [exact Ht|]. split; [reflexivity|]. split; [reflexivity|].
    split; [apply sameP_refl|]. split; [apply sameP_refl|]. split; [exact HL4|]. left; auto.
Qed.

Lemma look_rec e prevn r n : look (env_rec corrty e prevn r) n =
  if string_dec n "corr" then Some (corrty, r_corr r)
  else if string_dec n "coord" then Some (TDble, uvw r)
  else if string_dec n "time" then Some (TDble, r_t r)
  else if string_dec n "baseline" then Some (TReal, r_bl r)
  else if string_dec n "tscale" then
         match corrty with TInt2 => Some (TReal, r_tscale r) | _ => look e n end
  else if string_dec n "nchan" then (if r_n r =? prevn then look e n else Some (TInt, be4 (r_n r)))
  else look e n.
Proof.
  assert (Q : forall a, String.eqb a n = if string_dec n a then true else false).
  { intros a. destruct (string_dec n a) as [->|N]; [apply String.eqb_refl|apply String.eqb_neq; auto]. }
  unfold env_rec. cbn [look]. rewrite !Q.
  destruct (string_dec n "corr"); auto. destruct (string_dec n "coord"); auto.
  destruct (string_dec n "time"); auto. destruct (string_dec n "baseline"); auto.
  destruct corrty_ok as [-> | ->]; destruct (r_n r =? prevn); cbn [look]; rewrite ?Q;
    destruct (string_dec n "tscale"); auto; destruct (string_dec n "nchan"); auto; subst; try discriminate; auto.
Qed.

Lemma withflags_views w L fl : WI w L ->
  let w' := Wr (w_vars w) (w_off w) (w_file w) (w_init w) fl in
  WI w' L /\ extends w w' /\ (forall m, getp w' L m = getp w L m) /\ (forall m, has w' m = has w m) /\
  (forall m, getb w' m = getb w m) /\ (forall m, getl w' m = getl w m).
Proof.
  intros H w'. split; [destruct H; constructor; auto|]. split; [exists [], []; now rewrite !app_nil_r|].
  repeat split; reflexivity.
Qed.

Definition res_name (n : string) : Prop := preamble_name n \/ n = "corr"%string.

Lemma uvwrite_spec prev e set w L r nsize :
  SI prev e set w L -> good_rec corrty nsize r ->
  pre_ok feq8 feq4 add1000 addf1000 prev e set r ->
  (forall b, feq8 (d0 (add1000 (r_u r) ++ junk)) b = feq8 (add1000 (r_u r)) b) ->
  exists w' seg, uvwrite w r = Ok w' /\ no_eor seg /\ extends w w' /\
    w_flags w' = w_flags w ++ r_fl r /\
    SI (Some r) (env_rec corrty e (prevn prev) r) [] w' (L ++ seg ++ [SEor]) /\
    (exists i, fnd "corr" (wnames w') = Some i /\ In (SData i corrty (r_corr r)) seg).
Proof.
  intros S G PO Hjunk.
  assert (G' := G). destruct G' as (G1 & G2 & G3 & G4 & G5 & G6 & G7 & G8 & G9 & G10 & G11).
  destruct (d012 r G1 G2 G3) as (D0 & D1 & D2 & DL).
  pose proof (S_wi _ _ _ _ _ S) as H0.
  destruct (init_views prev e set w L r S) as (w1 & E1 & I1 & X1 & N1 & F1 & P1 & GL1 & T1 & C1 & B1).
  unfold UvModel.uvwrite. rewrite E1. cbn [bind].
  (* the preamble variables before anything is written *)
  assert (PI : forall n, preamble_name n -> pre_in n r w1 L).
  { intros n Hn. destruct (B1 n Hn) as (b & Hb & HbL & HbS & HbF). exists b.
    destruct PO as (O1 & O4).
    split; [rewrite T1; destruct Hn as [->|[->| ->]]; reflexivity|]. split; [exact Hb|].
    destruct (in_dec string_dec n (map fst set)) as [I|I].
    - destruct (O1 n Hn I) as [K|K].
      + right. exists (pre_val n r). rewrite P1.
        destruct (S_val _ _ _ _ _ S _ _ _ K) as (c & Q & Q' & _ & Q4).
        specialize (Q' (or_intror I)). subst c. split; [exact Q|]. split; [left; reflexivity|]. now apply Q4.
      + left. destruct prev as [q|].
        * destruct (S_later _ _ _ _ _ S q eq_refl) as (_ & _ & _ & K1). destruct (K1 n Hn) as (_ & b' & K2 & K3 & _).
          rewrite HbL in K2 by discriminate. inversion K2; subst b'.
          destruct K3 as [->|K3]; [exact K|]. destruct (eqP n b (pre_val n r)) eqn:EQ; [|reflexivity].
          rewrite (eqP_tri n b _ _ Hn K3 EQ) in K. discriminate.
        * apply K. apply HbS; auto.
    - destruct prev as [q|].
      + right. destruct (S_later _ _ _ _ _ S q eq_refl) as (_ & _ & _ & K).
        destruct (K n Hn) as (K1 & b' & K2 & _ & K3). rewrite HbL in K2 by discriminate. inversion K2; subst b'.
        destruct (look e n) as [[t bb]|] eqn:Lk; [|congruence].
        destruct (S_val _ _ _ _ _ S _ _ _ Lk) as (c & Q1 & _ & _ & Q4).
        assert (t = pre_ty n).
        { apply (S_ty _ _ _ _ _ S) in Lk. destruct Lk as (R1 & R2 & R3 & _).
          destruct Hn as [->|[->| ->]]; [rewrite R1|rewrite R2|rewrite R3]; auto. }
        subst t. exists c. rewrite P1. split; [auto|]. split; [right; eapply K3; eauto|auto].
      + left. destruct (HbF eq_refl I) as (K1 & K2 & K3). destruct (O4 eq_refl) as (O5 & O6 & O7).
        destruct Hn as [->|[->| ->]]; unfold pre_eq, pre_val; cbn [String.eqb Ascii.eqb Bool.eqb].
        * rewrite K1, D0, Hjunk by auto. now rewrite (O5 I).
        * rewrite K2 by auto. cbn. now rewrite (O6 I).
        * rewrite K3 by auto. cbn. now rewrite (O7 I). }
  (* the number of channels *)
  assert (CL : numchan corrty (corr_len w1) = prevn prev).
  { rewrite corr_len_getl, GL1. destruct prev as [q|].
    2:{ destruct (S_first _ _ _ _ _ S eq_refl) as (K1 & _). cbn [prevn]. rewrite K1.
        destruct corrty_ok as [-> | ->]; reflexivity. }
    destruct (S_later _ _ _ _ _ S q eq_refl) as (_ & _ & K2 & _). exact K2. }
  rewrite CL.
  assert (HT0 : forall n t, ~ res_name n -> rty n t -> (forall t', rty n t' -> t' = t) -> has w1 n = None \/ has w1 n = Some t).
  { intros n t Hr R U. rewrite T1.
    destruct (in_dec string_dec n _) as [I|_].
    { exfalso. apply Hr. unfold res_name, preamble_name. cbn in I. intuition congruence. }
    rewrite (S_has _ _ _ _ _ S) by (intros ->; apply Hr; right; auto).
    destruct (look e n) as [[t' b]|] eqn:E; [right|left; auto].
    cbn. f_equal. apply U. eapply (S_ty _ _ _ _ _ S); eauto. }
  assert (ST2 : exists w2 s2,
     (if r_n r =? prevn prev then Ok w1 else uvputvr w1 TInt "nchan" (be4 (r_n r))) = Ok w2 /\
     steps w1 L w2 s2 /\ w_init w2 = true /\ w_flags w2 = w_flags w /\
     (forall m, getp w2 (L ++ s2) m = if string_dec m "nchan" then
          (if r_n r =? prevn prev then getp w L m else Some (TInt, be4 (r_n r))) else getp w L m) /\
     (forall m, m <> "nchan"%string -> getb w2 m = getb w1 m) /\
     (forall m, has w2 m = if string_dec m "nchan" then
          (if r_n r =? prevn prev then has w1 m else Some TInt) else has w1 m)).
  { destruct (r_n r =? prevn prev).
    - exists w1, []. split; [auto|]. split; [now apply steps_refl|]. rewrite app_nil_r.
      split; [auto|]. split; [auto|]. split; [intros m; rewrite P1; destruct (string_dec m "nchan"); auto|].
      split; [auto|]. intros m; destruct (string_dec m "nchan"); auto.
    - destruct (put_steps w1 L TInt "nchan" (be4 (r_n r)) I1) as (w2 & s2 & A1 & A2 & A3 & A4 & A5 & A6 & A7 & _).
      + cbn; lia.
      + apply HT0.
        * unfold res_name, preamble_name. intuition discriminate.
        * unfold rty; rtyt.
        * intros t' (R1 & R2 & R3 & R4 & R5 & R6); auto.
      + rewrite zlen_be4; lia.
      + rewrite zlen_be4; reflexivity.
      + exists w2, s2. split; [auto|]. split; [auto|]. split; [congruence|]. split; [congruence|].
        split; [|split].
        * intros m. rewrite A5, P1. destruct (string_dec m "nchan") as [->|Q]; [reflexivity|].
          replace (String.eqb "nchan" m) with false; auto. symmetry; apply String.eqb_neq; auto.
        * exact A6.
        * intros m. rewrite A7. destruct (string_dec m "nchan") as [->|Q]; [reflexivity|].
          replace (String.eqb "nchan" m) with false; auto. symmetry; apply String.eqb_neq; auto. }
  destruct ST2 as (w2 & s2 & E2 & ST2 & N2 & F2 & P2 & B2 & T2).
  rewrite E2. cbn [bind].
  destruct (withflags_views w2 (L ++ s2) (w_flags w2 ++ r_fl r) (proj1 ST2)) as (V1 & V2 & V3 & V4 & V5 & _).
  set (w3 := Wr (w_vars w2) (w_off w2) (w_file w2) (w_init w2) (w_flags w2 ++ r_fl r)) in *.
  assert (ST4 : exists w4 s4,
     (match corrty with TInt2 => uvputvr w3 TReal "tscale" (r_tscale r) | _ => Ok w3 end) = Ok w4 /\
     steps w3 (L ++ s2) w4 s4 /\ w_init w4 = true /\ w_flags w4 = w_flags w ++ r_fl r /\
     (forall m, getp w4 ((L ++ s2) ++ s4) m = if string_dec m "tscale" then
          (match corrty with TInt2 => Some (TReal, r_tscale r) | _ => getp w L m end) else getp w2 (L ++ s2) m) /\
     (forall m, m <> "tscale"%string -> getb w4 m = getb w2 m) /\
     (forall m, has w4 m = if string_dec m "tscale" then
          (match corrty with TInt2 => Some TReal | _ => has w1 m end) else has w2 m)).
  { destruct corrty_ok as [CT|CT]; rewrite CT in *.
    - exists w3, []. split; [auto|]. split; [now apply steps_refl|]. rewrite app_nil_r.
      split; [auto|]. split; [unfold w3; cbn; congruence|].
      split; [|split].
      + intros m. rewrite V3, P2. destruct (string_dec m "tscale") as [->|Q]; auto.
      + intros m Hm. apply V5.
      + intros m. rewrite V4, T2. destruct (string_dec m "tscale") as [->|Q]; auto.
    - destruct (put_steps w3 (L ++ s2) TReal "tscale" (r_tscale r) V1) as (w4 & s4 & A1 & A2 & A3 & A4 & A5 & A6 & A7 & _).
      + cbn; lia.
      + rewrite V4, T2. cbn. apply HT0.
        * unfold res_name, preamble_name. intuition discriminate.
        * unfold rty; rtyt.
        * intros t' (R1 & R2 & R3 & R4 & R5 & R6); auto.
      + unfold zlen; rewrite G11; cbn; lia.
      + unfold zlen; rewrite G11; reflexivity.
      + exists w4, s4. split; [auto|]. split; [auto|]. split; [rewrite A3; auto|].
        split; [rewrite A4; unfold w3; cbn; congruence|].
        split; [|split].
        * intros m. rewrite A5, V3. destruct (string_dec m "tscale") as [->|Q]; [reflexivity|].
          replace (String.eqb "tscale" m) with false; auto. symmetry; apply String.eqb_neq; auto.
        * intros m Hm. rewrite A6 by auto. apply V5.
        * intros m. rewrite A7, V4. destruct (string_dec m "tscale") as [->|Q]; [reflexivity|].
          replace (String.eqb "tscale" m) with false; auto. symmetry; apply String.eqb_neq; auto. }
  destruct ST4 as (w4 & s4 & E4 & ST4 & N4 & F4 & P4 & B4 & T4).
  rewrite E4. cbn [bind].
  (* the correlations *)
  assert (CT4 : exists b, getb w4 "corr" = Some (true, b)).
  { destruct C1 as (b & C1). exists b. rewrite B4, B2 by discriminate. auto. }
  assert (HC4 : has w4 "corr" = Some corrty).
  { rewrite T4. cbn. rewrite T2. cbn. rewrite T1. reflexivity. }
  pose proof (ext_pos corrty) as HE.
  destruct (put_steps w4 ((L ++ s2) ++ s4) corrty "corr" (r_corr r) (proj1 ST4))
    as (w5 & s5 & E5 & ST5 & N5 & F5 & P5 & B5 & T5 & B5' & D5 & _ & _ & _ & GL5).
  { cbn; lia. } { right; auto. } { rewrite G9. nia. }
  { rewrite G9. replace (2 * ext corrty * r_n r) with ((2 * r_n r) * ext corrty) by lia. apply Z.mod_mul; lia. }
  rewrite E5. cbn [bind].
  destruct (D5 (or_introl CT4)) as (ic & Dc1 & Dc2).
  set (L5 := ((L ++ s2) ++ s4) ++ s5) in *.
  assert (PI5 : forall n, preamble_name n -> pre_in n r w5 L5).
  { intros n Hn. apply (pre_in_keep n r w1 L); [| | |auto].
    - unfold L5. rewrite P5, P4, P2, P1. destruct Hn as [->|[->| ->]]; reflexivity.
    - rewrite B5, B4, B2; auto; destruct Hn as [->|[->| ->]]; discriminate.
    - rewrite T5, T4, T2. destruct Hn as [->|[->| ->]]; reflexivity. }
  (* coord *)
  destruct (pre_do "coord" r w5 L5 nsize (proj1 ST5) (or_introl eq_refl) G (PI5 _ (or_introl eq_refl)))
    as (w6 & s6 & E6 & ST6 & N6 & F6 & O6 & K6 & T6 & GL6).
  assert (C6 : (if negb (feq8 (d0 (buf_of w5 "coord")) (r_u r)) || negb (feq8 (d1 (buf_of w5 "coord")) (r_v r))
                    || negb (feq8 (d2 (buf_of w5 "coord")) (r_w r))
        then bind (uvputvr w5 TDble "coord" (r_u r ++ r_v r ++ r_w r)) (fun w =>
             Ok (set_buf w "coord" (r_u r ++ r_v r ++ r_w r)))
        else Ok w5) = Ok w6).
  { rewrite <- E6. unfold pre_eq, pre_val. cbn [String.eqb Ascii.eqb Bool.eqb]. rewrite D0, D1, D2.
    rewrite !negb_andb. reflexivity. }
  rewrite C6. cbn [bind].
  (* time *)
  destruct (pre_do "time" r w6 (L5 ++ s6) nsize (proj1 ST6) (or_intror (or_introl eq_refl)) G)
    as (w7 & s7 & E7 & ST7 & N7 & F7 & O7 & K7 & T7 & GL7).
  { apply (pre_in_keep "time" r w5 L5); [apply K6; discriminate|apply K6; discriminate|auto|].
    apply PI5. right; left; auto. }
  assert (C7 : (if negb (feq8 (r_t r) (buf_of w6 "time"))
        then bind (uvputvr w6 TDble "time" (r_t r)) (fun w => Ok (set_buf w "time" (r_t r)))
        else Ok w6) = Ok w7) by exact E7.
  rewrite C7. cbn [bind].
  (* baseline *)
  destruct (pre_do "baseline" r w7 ((L5 ++ s6) ++ s7) nsize (proj1 ST7) (or_intror (or_intror eq_refl)) G)
    as (w8 & s8 & E8 & ST8 & N8 & F8 & O8 & K8 & T8 & GL8).
  { apply (pre_in_keep "baseline" r w5 L5); [| | |apply PI5; right; right; auto].
    - destruct (K7 "baseline"%string) as [-> _]; [discriminate|]. apply K6; discriminate.
    - destruct (K7 "baseline"%string) as [_ ->]; [discriminate|]. apply K6; discriminate.
    - rewrite T7. auto. }
  assert (C8 : (if negb (feq4 (r_bl r) (buf_of w7 "baseline"))
        then bind (uvputvr w7 TReal "baseline" (r_bl r)) (fun w => Ok (set_buf w "baseline" (r_bl r)))
        else Ok w7) = Ok w8) by exact E8.
  rewrite C8. cbn [bind].
  set (L8 := ((L5 ++ s6) ++ s7) ++ s8) in *.
  destruct (next_views w8 L8 (proj1 ST8)) as (Q1 & Q2 & Q3 & Q4 & Q5 & Q6 & Q7 & Q8).
  assert (STall : steps w1 L w8 (s2 ++ s4 ++ s5 ++ s6 ++ s7 ++ s8)).
  { replace (s2 ++ s4 ++ s5 ++ s6 ++ s7 ++ s8) with (((((s2 ++ s4) ++ s5) ++ s6) ++ s7) ++ s8) by now rewrite <- !app_assoc.
    assert (ST3 : steps w1 L w4 (s2 ++ s4)).
    { destruct ST2 as (Z1 & Z2 & Z3), ST4 as (Z4 & Z5 & Z6). split; [now rewrite app_assoc|].
      split; [now apply no_eor_app|]. eapply extends_trans; [exact Z3|]. eapply extends_trans; [exact V2|exact Z6]. }
    assert (R5 : steps w1 L w5 ((s2 ++ s4) ++ s5)) by (eapply steps_trans; [exact ST3|]; rewrite app_assoc; exact ST5).
    assert (R6 : steps w1 L w6 (((s2 ++ s4) ++ s5) ++ s6)).
    { eapply steps_trans; [exact R5|]. rewrite !app_assoc. exact ST6. }
    assert (R7 : steps w1 L w7 ((((s2 ++ s4) ++ s5) ++ s6) ++ s7)).
    { eapply steps_trans; [exact R6|]. rewrite !app_assoc. exact ST7. }
    eapply steps_trans; [exact R7|]. rewrite !app_assoc. exact ST8. }
  assert (EL8 : L8 = L ++ (s2 ++ s4 ++ s5 ++ s6 ++ s7 ++ s8)).
  { unfold L8, L5. now rewrite <- !app_assoc. }
  exists (uvnext w8), (s2 ++ s4 ++ s5 ++ s6 ++ s7 ++ s8).
  destruct STall as (Z1 & Z2 & Z3).
  split; [reflexivity|]. split; [exact Z2|].
  split; [eapply extends_trans; [exact X1|]; eapply extends_trans; eauto|].
  split; [rewrite Q7, F8, F7, F6, F5, F4; reflexivity|].
  (* views of the final state *)
  assert (PO' : forall n, preamble_name n -> pre_out n r (uvnext w8) (L8 ++ [SEor])).
  { intros n [->|[->| ->]].
    - eapply pre_out_keep; [| | |exact O6]; rewrite ?Q3, ?Q5, ?Q4.
      + destruct (K8 "coord"%string) as [-> _]; [discriminate|]. apply K7; discriminate.
      + destruct (K8 "coord"%string) as [_ ->]; [discriminate|]. apply K7; discriminate.
      + rewrite T8, T7. auto.
    - eapply pre_out_keep; [| | |exact O7]; rewrite ?Q3, ?Q5, ?Q4.
      + apply K8; discriminate.
      + apply K8; discriminate.
      + rewrite T8. auto.
    - eapply pre_out_keep; [| | |exact O8]; rewrite ?Q3, ?Q5, ?Q4; auto. }
  assert (GP : forall m, ~ preamble_name m -> getp (uvnext w8) (L8 ++ [SEor]) m = getp w5 L5 m).
  { intros m Hm. rewrite Q3.
    destruct (K8 m) as [-> _]; [intros ->; apply Hm; right; right; auto|].
    destruct (K7 m) as [-> _]; [intros ->; apply Hm; right; left; auto|].
    apply K6. intros ->; apply Hm; left; auto. }
  assert (HS : forall m, has (uvnext w8) m = has w5 m) by (intros m; rewrite Q4, T8, T7, T6; auto).
  split.
  2:{ exists ic. split.
      - destruct ST6 as (_ & _ & (n6 & t6 & Y6 & _)), ST7 as (_ & _ & (n7 & t7 & Y7 & _)),
          ST8 as (_ & _ & (n8 & t8 & Y8 & _)).
        change (wnames (uvnext w8)) with (wnames w8).
        apply find_nth; [apply (W_nodup _ _ Z1)|].
        rewrite Y8, Y7, Y6. apply find_some in Dc1.
        assert ((ic < List.length (wnames w5))%nat) by (apply nth_error_Some; congruence).
        rewrite !nth_error_app1 by (rewrite ?app_length; lia). auto.
      - apply in_or_app; right; apply in_or_app; right; apply in_or_app; left; auto. }
  rewrite app_assoc, <- EL8.
  assert (SV : forall n t b, look (env_rec corrty e (prevn prev) r) n = Some (t, b) ->
     has w5 n = Some t /\ (~ preamble_name n -> getp w5 L5 n = Some (t, b)) /\
     (preamble_name n -> t = pre_ty n /\ b = pre_val n r) /\ rty n t).
  { intros n t b. rewrite look_rec. rewrite T5. unfold L5. rewrite P5.
    destruct (string_dec n "corr") as [->|Ncorr].
    { intros X; inversion X; subst. cbn. split; [auto|]. split; [auto|]. split; [|unfold rty; rtyt].
      intros [Y|[Y|Y]]; discriminate Y. }
    replace (String.eqb "corr" n) with false by (symmetry; apply String.eqb_neq; auto).
    rewrite T4, T2, P4, P2.
    destruct (string_dec n "coord") as [->|Ncoord].
    { intros X; inversion X; subst. cbn. rewrite T1. cbn. split; [auto|].
      split; [intros Y; exfalso; apply Y; left; auto|]. split; [auto|unfold rty; rtyt]. }
    destruct (string_dec n "time") as [->|Ntime].
    { intros X; inversion X; subst. cbn. rewrite T1. cbn. split; [auto|].
      split; [intros Y; exfalso; apply Y; right; left; auto|]. split; [auto|unfold rty; rtyt]. }
    destruct (string_dec n "baseline") as [->|Nbl].
    { intros X; inversion X; subst. cbn. rewrite T1. cbn. split; [auto|].
      split; [intros Y; exfalso; apply Y; right; right; auto|]. split; [auto|unfold rty; rtyt]. }
    assert (NP : ~ preamble_name n) by (intros [Y|[Y|Y]]; contradiction).
    assert (OLD : look e n = Some (t, b) -> has w1 n = Some t /\ getp w L n = Some (t, b) /\ rty n t).
    { intros X. rewrite T1. destruct (in_dec string_dec n _) as [I|_].
      { exfalso. cbn in I. intuition congruence. }
      rewrite (S_has _ _ _ _ _ S), X by auto. split; [auto|].
      split; [|eapply (S_ty _ _ _ _ _ S); eauto].
      destruct (S_val _ _ _ _ _ S _ _ _ X) as (c & Y1 & Y2 & _). rewrite Y1, Y2; auto. }
    destruct (string_dec n "tscale") as [->|Nts].
    { destruct corrty_ok as [CT|CT]; rewrite CT in *.
      - intros X. destruct (OLD X) as (Y1 & Y2 & Y3). cbn. split; [auto|]. split; [auto|]. split; [contradiction|auto].
      - intros X; inversion X; subst. split; [auto|]. split; [auto|]. split; [contradiction|unfold rty; rtyt]. }
    destruct (string_dec n "nchan") as [->|Nn].
    { destruct (r_n r =? prevn prev).
      - intros X. destruct (OLD X) as (Y1 & Y2 & Y3). split; [auto|]. split; [auto|]. split; [contradiction|auto].
      - intros X; inversion X; subst. split; [auto|]. split; [auto|]. split; [contradiction|unfold rty; rtyt]. }
    intros X. destruct (OLD X) as (Y1 & Y2 & Y3). split; [auto|]. split; [auto|]. split; [contradiction|auto]. }
  constructor.
  - exact Q1.
  - intros n Ncorr. rewrite HS. destruct (look (env_rec corrty e (prevn prev) r) n) as [[t b]|] eqn:Lk.
    + destruct (SV _ _ _ Lk) as (Y & _). auto.
    + rewrite look_rec in Lk. rewrite T5.
      destruct (string_dec n "corr") as [->|_]; [discriminate|].
      replace (String.eqb "corr" n) with false by (symmetry; apply String.eqb_neq; auto).
      rewrite T4, T2.
      destruct (string_dec n "coord") as [->|Ncoord]; [discriminate|].
      destruct (string_dec n "time") as [->|Ntime]; [discriminate|].
      destruct (string_dec n "baseline") as [->|Nbl]; [discriminate|].
      assert (H1 : look e n = None -> has w1 n = None).
      { intros X. rewrite T1. destruct (in_dec string_dec n _) as [I|_].
        { exfalso. cbn in I. intuition congruence. }
        rewrite (S_has _ _ _ _ _ S), X by auto. auto. }
      cbn [option_map].
      destruct (string_dec n "tscale") as [->|Nts].
      { destruct corrty_ok as [CT|CT]; rewrite CT in *; [apply H1; exact Lk|discriminate]. }
      destruct (string_dec n "nchan") as [->|Nn]; auto. destruct (r_n r =? prevn prev); auto; discriminate.
  - rewrite HS, T5. reflexivity.
  - intros n t b Lk. apply (SV _ _ _ Lk).
  - intros n t b Lk. destruct (SV _ _ _ Lk) as (Y1 & Y2 & Y3 & Y4).
    destruct (in_dec string_dec n ["coord"; "time"; "baseline"]%string) as [I|I].
    + assert (Hn : preamble_name n) by (clear -I; destruct I as [I|[I|[I|[]]]]; unfold preamble_name; auto).
      destruct (Y3 Hn) as (-> & ->).
      destruct (PO' n Hn) as (bb & c & M1 & M2 & M3 & M4 & M5 & M6 & M7).
      exists c. split; [auto|]. split; [intros [X|[]]; contradiction|]. split; auto.
    + assert (Hn : ~ preamble_name n) by (clear -I; intros [X|[X|X]]; apply I; cbn; auto).
      exists b. split; [rewrite GP by auto; auto|]. split; [auto|].
      split; [apply sameP_refl|]. contradiction.
  - rewrite Q6, N8, N7, N6, N5. auto.
  - discriminate.
  - intros q Eq. inversion Eq; subst q. split; [|split; [|split]].
    + destruct CT4 as (b & CT4). exists b. rewrite Q5.
      destruct (K8 "corr"%string) as [_ ->]; [discriminate|].
      destruct (K7 "corr"%string) as [_ ->]; [discriminate|].
      destruct (K6 "corr"%string) as [_ ->]; [discriminate|]. auto.
    + exists (r_corr r). rewrite look_rec. reflexivity.
    + rewrite Q8, GL8, GL7, GL6 by discriminate. rewrite GL5.
      unfold zlen in *. destruct corrty_ok as [CT|CT]; rewrite CT in *; cbn [numchan ext] in *; rewrite G9.
      * replace (2 * 4 * r_n r) with (r_n r * (2 * 4)) by lia. apply Z.div_mul; lia.
      * replace (2 * 2 * r_n r) with (r_n r * (2 * 2)) by lia. apply Z.div_mul; lia.
    + intros n Hn. split.
      * rewrite look_rec. destruct Hn as [->|[->| ->]]; cbn; discriminate.
      * destruct (PO' n Hn) as (bb & c & M1 & M2 & M3 & M4 & M5 & M6 & M7). exists bb. split; [auto|].
        split; [exact M7|]. intros _ t c' X. rewrite M3 in X. inversion X; subst c'. auto.
Qed.
End Host.
