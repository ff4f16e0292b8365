(* The CLEAN loop for any index set and any value ring. *)
From Coq Require Import Reals Lra Permutation Ring.
From Verif Require Import Base CleanModel CleanSpec.
Ltac Zify.zify_post_hook ::= idtac.
Open Scope R_scope.

Lemma Rltb_true x y : Rltb x y = true <-> x < y.
Proof. unfold Rltb. destruct (Rlt_dec x y); split; auto; discriminate. Qed.
Lemma Rltb_false x y : Rltb x y = false <-> y <= x.
Proof. unfold Rltb. destruct (Rlt_dec x y); split; intros; auto; try discriminate; lra. Qed.

Lemma rsum_ext {A} (l : list A) f g : (forall x, In x l -> f x = g x) -> rsum l f = rsum l g.
Proof. induction l as [|x l IH]; intros H; auto. cbn [rsum]. rewrite H, IH; auto. intros; apply H; right; auto. left; auto. Qed.
Lemma rsum_app {A} (l m : list A) f : rsum (l ++ m) f = rsum l f + rsum m f.
Proof. induction l as [|x l IH]; cbn [app rsum]; [ring | rewrite IH; ring]. Qed.
Lemma rsum_map {A B} (h : A -> B) l f : rsum (map h l) f = rsum l (fun x => f (h x)).
Proof. induction l as [|x l IH]; auto. cbn [map rsum]. rewrite IH; auto. Qed.
Lemma rsum_perm {A} (l m : list A) f : Permutation l m -> rsum l f = rsum m f.
Proof. induction 1; cbn [rsum]; try lra. Qed.
Lemma rsum_nonneg {A} (l : list A) f : (forall x, In x l -> 0 <= f x) -> 0 <= rsum l f.
Proof. induction l as [|x l IH]; intros H; cbn [rsum]; [lra|]. assert (0 <= f x) by (apply H; left; auto). assert (0 <= rsum l f) by (apply IH; intros; apply H; right; auto). lra. Qed.
Lemma rsum_zero {A} (l : list A) f : (forall x, In x l -> 0 <= f x) -> rsum l f = 0 -> forall x, In x l -> f x = 0.
Proof.
  induction l as [|y l IH]; intros H E x K; [destruct K|]. cbn [rsum] in E.
  assert (0 <= f y) by (apply H; left; auto). assert (0 <= rsum l f) by (apply rsum_nonneg; intros; apply H; right; auto).
  destruct K as [<-|K]; [lra|]. apply IH; auto; [intros; apply H; right; auto | lra].
Qed.
Lemma rsum_const0 {A} (l : list A) f : (forall x, In x l -> f x = 0) -> rsum l f = 0.
Proof. induction l as [|x l IH]; intros H; auto. cbn [rsum]. rewrite H, IH; [lra | intros; apply H; right; auto | left; auto]. Qed.
Lemma rsum_prod {A B} (l : list A) (m : list B) f : rsum (list_prod l m) f = rsum l (fun a => rsum m (fun b => f (a, b))).
Proof. induction l as [|x l IH]; auto. cbn [list_prod rsum]. rewrite rsum_app, rsum_map, IH. auto. Qed.

Lemma nodup_map_in {A B} (f : A -> B) l : (forall x y, In x l -> In y l -> f x = f y -> x = y) -> NoDup l -> NoDup (map f l).
Proof.
  induction l as [|x l IH]; intros H N; [constructor|]. inversion N; subst. cbn [map]. constructor.
  - intros K. apply in_map_iff in K as (y & E & Y). rewrite (H y x) in Y; auto; [right; auto | left; auto].
  - apply IH; auto. intros; apply H; auto; right; auto.
Qed.
Section G.
Context {I V : Type}.
Variables (ieq : I -> I -> bool) (cells : list I) (wrap diff : I -> I -> I) (origin : I).
Variables (vzero vone : V) (vadd vsub vmul : V -> V -> V) (vopp : V -> V) (scale : R -> V -> V) (norm2 : V -> R) (vpos : V -> bool)
          (inverse : V -> R -> V) (change : R -> R -> R).
Variables (ker : I -> V) (area : I -> Z) (gain tol : R) (maxiter : Z) (stop_if_div pos_def : bool).
Hypothesis ieq_spec : forall a b, reflect (a = b) (ieq a b).
Hypothesis cells_nodup : NoDup cells.
Hypothesis wrap_in : forall n a, In n cells -> In a cells -> In (wrap n a) cells.
Hypothesis diff_in : forall c a, In c cells -> In a cells -> In (diff c a) cells.
Hypothesis wrap_diff : forall c a, In c cells -> In a cells -> wrap (diff c a) a = c.
Hypothesis diff_wrap : forall n a, In n cells -> In a cells -> diff (wrap n a) a = n.
Hypothesis origin_in : In origin cells.
Hypothesis vring : ring_theory vzero vone vadd vmul vsub vopp (@eq V).
Hypothesis scale0 : forall g, scale g vzero = vzero.
Hypothesis norm_nonneg : forall v, 0 <= norm2 v.
Hypothesis norm_zero : forall v, norm2 v = 0 <-> v = vzero.
Hypothesis norm_opp : forall v, norm2 (vopp v) = norm2 v.
Add Ring VR : vring.

Notation setf := (@setf I V ieq).
Notation in_area := (@in_area I area).
Notation pass1 := (pass1 ieq wrap vsub vmul norm2 vpos ker area pos_def).
Notation undo1 := (undo1 ieq wrap vadd vmul ker).
Notation buffer1 := (buffer1 ieq wrap vadd vmul ker).
Notation turn := (turn ieq cells wrap vadd vsub vmul scale norm2 vpos change ker area gain tol stop_if_div pos_def).
Notation loop := (loop ieq cells wrap vadd vsub vmul scale norm2 vpos change ker area gain tol maxiter stop_if_div pos_def).
Notation start := (@start I V origin vzero).

Lemma setf_same f i v : setf f i v i = v.
Proof. unfold CleanModel.setf. destruct (ieq_spec i i); congruence. Qed.
Lemma setf_other f i v j : i <> j -> setf f i v j = f j.
Proof. unfold CleanModel.setf. destruct (ieq_spec i j); congruence. Qed.

Lemma wraps_perm a : In a cells -> Permutation (map (fun n => wrap n a) cells) cells.
Proof.
  intros A. apply NoDup_Permutation_bis.
  - apply nodup_map_in; auto. intros x y X Y E. rewrite <- (diff_wrap x a), <- (diff_wrap y a) by auto. congruence.
  - rewrite map_length. auto.
  - intros c H. apply in_map_iff in H as (n & <- & N). auto.
Qed.
Lemma wraps_nodup a : In a cells -> NoDup (map (fun n => wrap n a) cells).
Proof. intros A. eapply Permutation_NoDup; [apply Permutation_sym, wraps_perm; auto | auto]. Qed.

(* ---- one pass ---- *)
Definition qualifies (r : I -> V) (c : I) : Prop := in_area c = true /\ (pos_def = false \/ vpos (r c) = true).
Lemma pass_fold arg step l : forall p, NoDup (map (fun n => wrap n arg) l) ->
  let p' := fold_left (pass1 arg step) l p in
  (forall n, In n l -> p_res p' (wrap n arg) = vsub (p_res p (wrap n arg)) (vmul (ker n) step)) /\
  (forall c, ~ In c (map (fun n => wrap n arg) l) -> p_res p' c = p_res p c) /\
  p_nscore p' = p_nscore p + rsum l (fun n => norm2 (p_res p' (wrap n arg))) /\
  (forall n, In n l -> qualifies (p_res p') (wrap n arg) -> norm2 (p_res p' (wrap n arg)) <= p_mmax p') /\
  ((p_max p' = p_max p /\ p_narg p' = p_narg p /\ p_mmax p' = p_mmax p) \/
   (exists n, In n l /\ p_narg p' = wrap n arg /\ qualifies (p_res p') (p_narg p') /\ p_max p' = p_res p' (p_narg p') /\
              p_mmax p' = norm2 (p_max p') /\ p_mmax p < p_mmax p')).
Proof.
  induction l as [|n l IH]; intros p ND p'; subst p'.
  - cbn. split; [tauto|]. split; [auto|]. split; [ring|]. split; [tauto|]. left; auto.
  - cbn [map] in ND. inversion ND as [|? ? N1 N2]; subst. cbn [fold_left].
    set (p1 := pass1 arg step p n). assert (P1 : p_res p1 = setf (p_res p) (wrap n arg) (vsub (p_res p (wrap n arg)) (vmul (ker n) step)) /\
       p_nscore p1 = p_nscore p + norm2 (vsub (p_res p (wrap n arg)) (vmul (ker n) step))).
    { unfold p1, CleanModel.pass1. destruct (_ && _); cbn; auto. }
    destruct P1 as [PR PS]. destruct (IH p1 N2) as (A & B & S & TOP & M). cbv zeta in *. set (p' := fold_left (pass1 arg step) l p1) in *.
    assert (E0 : p_res p' (wrap n arg) = vsub (p_res p (wrap n arg)) (vmul (ker n) step)).
    { rewrite B by auto. rewrite PR. apply setf_same. }
    assert (Q1 : (qualifies (p_res p') (wrap n arg) -> norm2 (p_res p' (wrap n arg)) <= p_mmax p1) /\
      ((p_max p1 = p_max p /\ p_narg p1 = p_narg p /\ p_mmax p1 = p_mmax p) \/
       (p_narg p1 = wrap n arg /\ qualifies (p_res p') (p_narg p1) /\ p_max p1 = p_res p' (p_narg p1) /\ p_mmax p1 = norm2 (p_max p1) /\ p_mmax p < p_mmax p1))).
    { unfold qualifies. unfold p1, CleanModel.pass1. destruct (_ && _) eqn:C; cbn [p_max p_narg p_mmax].
      - rewrite E0. split; [lra|]. right. apply andb_true_iff in C as [C C3]. apply andb_true_iff in C as [C1 C2]. apply Rltb_true in C1.
        split; auto. split; [split; auto; apply orb_true_iff in C2 as [C2|C2]; [left; apply negb_true_iff; auto | right; auto]|]. auto.
      - rewrite E0. split; [|left; auto]. intros [AR PO]. rewrite AR, andb_true_r in C. apply andb_false_iff in C as [C|C]; [apply Rltb_false; auto|].
        apply orb_false_iff in C as [C1 C2]. apply negb_false_iff in C1. destruct PO; congruence. }
    destruct Q1 as [Q1 Q2]. split; [|split; [|split; [|split]]].
    + intros m [<-|H]; auto. rewrite A by auto. rewrite PR. rewrite setf_other; auto.
      intros E. apply N1. rewrite E. apply (in_map (fun n => wrap n arg)); auto.
    + intros c H. cbn [map In] in H. rewrite B by tauto. rewrite PR. apply setf_other. tauto.
    + rewrite S, PS. cbn [rsum]. rewrite E0. ring.
    + intros m [<-|H] QU; [|apply TOP; auto]. specialize (Q1 QU). destruct M as [(_ & _ & M3)|(m & _ & _ & _ & _ & _ & M3)]; lra.
    + destruct M as [(M1 & M2 & M3)|(m & HI & M1 & M2 & M3 & M4 & M5)].
      * rewrite M1, M2, M3. destruct Q2 as [Q2|Q2]; [left; auto|]. right. exists n. split; [left; auto | auto].
      * right. exists m. split; [right; auto|]. split; auto. split; auto. split; auto. split; auto.
        destruct Q2 as [(_ & _ & Q2)|(_ & _ & _ & _ & Q2)]; lra.
Qed.

(* adding the shifted kernel back, in place or into a buffer *)
Lemma undo_fold arg step l : forall r, NoDup (map (fun n => wrap n arg) l) ->
  let r' := fold_left (undo1 arg step) l r in
  (forall n, In n l -> r' (wrap n arg) = vadd (r (wrap n arg)) (vmul (ker n) step)) /\
  (forall c, ~ In c (map (fun n => wrap n arg) l) -> r' c = r c).
Proof.
  induction l as [|n l IH]; intros r ND r'; subst r'; [cbn; split; [tauto|auto]|].
  cbn [map] in ND. inversion ND as [|? ? N1 N2]; subst. cbn [fold_left]. destruct (IH (undo1 arg step r n) N2) as [A B]. cbv zeta in *.
  unfold CleanModel.undo1 in A, B at 2 |- * at 2. split.
  - intros m [<-|H].
    + rewrite B by auto. apply setf_same.
    + rewrite A by auto. rewrite setf_other; auto. intros E. apply N1. rewrite E. apply (in_map (fun n => wrap n arg)); auto.
  - intros c H. cbn [map In] in H. rewrite B by tauto. apply setf_other. tauto.
Qed.
Lemma buffer_fold arg step res l : forall r, NoDup (map (fun n => wrap n arg) l) ->
  let r' := fold_left (buffer1 arg step res) l r in
  (forall n, In n l -> r' (wrap n arg) = vadd (res (wrap n arg)) (vmul (ker n) step)) /\
  (forall c, ~ In c (map (fun n => wrap n arg) l) -> r' c = r c).
Proof.
  induction l as [|n l IH]; intros r ND r'; subst r'; [cbn; split; [tauto|auto]|].
  cbn [map] in ND. inversion ND as [|? ? N1 N2]; subst. cbn [fold_left]. destruct (IH (buffer1 arg step res r n) N2) as [A B]. cbv zeta in *.
  split.
  - intros m [<-|H]; [|auto]. rewrite B by auto. unfold CleanModel.buffer1. apply setf_same.
  - intros c H. cbn [map In] in H. rewrite B by tauto. unfold CleanModel.buffer1. apply setf_other. tauto.
Qed.

(* ---- convolution ---- *)
Fixpoint vsum {A} (l : list A) (f : A -> V) : V := match l with [] => vzero | x :: r => vadd (f x) (vsum r f) end.
Definition gconv (m : I -> V) (c : I) : V := vsum cells (fun a => vmul (ker (diff c a)) (m a)).
Lemma vsum_ext {A} (l : list A) f g : (forall x, In x l -> f x = g x) -> vsum l f = vsum l g.
Proof. induction l as [|x l IH]; intros H; auto. cbn [vsum]. rewrite H, IH; auto. intros; apply H; right; auto. left; auto. Qed.
Lemma vsum_set (m : I -> V) a v c l : NoDup l -> In a l ->
  vsum l (fun x => vmul (ker (diff c x)) (setf m a v x)) = vadd (vsum l (fun x => vmul (ker (diff c x)) (m x))) (vmul (ker (diff c a)) (vsub v (m a))).
Proof.
  induction l as [|x l IH]; intros ND H; [destruct H|]. inversion ND as [|? ? N1 N2]; subst. cbn [vsum]. destruct H as [->|H].
  - rewrite setf_same. rewrite (vsum_ext l _ (fun x => vmul (ker (diff c x)) (m x))).
    + ring.
    + intros y Y. rewrite setf_other; auto. intros ->. tauto.
  - rewrite IH by auto. rewrite setf_other by (intros ->; tauto). ring.
Qed.
Lemma gconv_set m a v c : In a cells -> gconv (setf m a v) c = vadd (gconv m c) (vmul (ker (diff c a)) (vsub v (m a))).
Proof. intros. apply vsum_set; auto. Qed.

Definition gsum2 (r : I -> V) : R := rsum cells (fun c => norm2 (r c)).
Definition grms (r : I -> V) : R := sqrt (gsum2 r / INR (length cells)).

Lemma cells_pos : 0 < INR (length cells).
Proof. apply lt_0_INR. destruct cells; [destruct origin_in|]. cbn. lia. Qed.
Lemma gsum2_nonneg r : 0 <= gsum2 r.
Proof. apply rsum_nonneg. auto. Qed.
Lemma grms_ext a b : (forall c, In c cells -> a c = b c) -> grms a = grms b.
Proof. intros H. unfold grms, gsum2. rewrite (rsum_ext cells _ (fun c => norm2 (b c))); auto. intros. rewrite H; auto. Qed.
Lemma grms_zero a : grms a = 0 -> forall c, In c cells -> a c = vzero.
Proof.
  intros H c C. apply norm_zero. assert (N := gsum2_nonneg a). assert (P := cells_pos).
  unfold grms in H. apply sqrt_eq_0 in H; [|apply Rmult_le_pos; auto; left; apply Rinv_0_lt_compat; auto].
  apply (rsum_zero cells (fun c => norm2 (a c))); auto. fold (gsum2 a).
  apply Rmult_integral in H as [H|H]; auto. exfalso. apply Rinv_neq_0_compat in H; auto. lra.
Qed.
Lemma grms_nonneg a : 0 <= grms a.
Proof. apply sqrt_pos. Qed.

(* ---- the invariant ---- *)
Variables (mdl0 res0 : I -> V).
Definition conserved (m r : I -> V) : Prop :=
  forall c, In c cells -> vadd (r c) (gconv m c) = vadd (res0 c) (gconv mdl0 c).
Definition masked (m : I -> V) : Prop := forall c, in_area c = false -> m c = mdl0 c.
Definition first0 := grms res0.
Definition step_of (q : V) (s : state (I:=I) (V:=V)) : V := scale gain (vmul (s_max s) q).
Definition ksum (step : V) : R := rsum cells (fun n => norm2 (vmul (ker n) step)).
Definition krms (step : V) : R := sqrt (ksum step / INR (length cells)).

Record inv (q : V) (s : state (I:=I) (V:=V)) : Prop := {
  v_cons : conserved (s_mdl s) (s_res s);
  v_mask : masked (s_mdl s);
  v_arg : In (s_arg s) cells;
  v_max : s_max s = vzero \/ in_area (s_arg s) = true;
  v_best : 0 < s_best s -> conserved (s_bmdl s) (s_bres s) /\ masked (s_bmdl s) /\ grms (s_bres s) = s_best s;
  v_stop : stop_if_div = true -> s_best s = -1;
  v_bestpos : s_best s = -1 \/ 0 < s_best s;
  v_i : (0 <= s_i s)%Z;
  v_score : (s_score s = -1 /\ s_first s = -1 /\ s_best s = -1 /\ s_max s = vzero /\ s_i s = 0%Z /\ forall c, In c cells -> s_res s c = res0 c) \/
            (s_first s = first0 /\ s_score s = grms (s_res s) /\ s_nscore s = s_score s /\ (1 <= s_i s)%Z /\
             (s_score s <= first0 \/ (0 < s_best s /\ s_best s <= first0)) /\ (s_score s = 0 -> krms (step_of q s) <= first0 \/ (0 < s_best s /\ s_best s <= first0)))
}.
Lemma start_inv q : inv q (start mdl0 res0).
Proof. constructor; cbn; auto; try lra; try lia. - intros c _. auto. - intros c _; auto. - left. repeat split; auto. Qed.

Record turned (q : V) (s : state (I:=I) (V:=V)) (mdl res : I -> V) (p : pass (I:=I) (V:=V)) : Prop := {
  t_res : forall c, In c cells -> res c = vsub (s_res s c) (vmul (ker (diff c (s_arg s))) (step_of q s));
  t_cons : conserved mdl res; t_mask : masked mdl;
  t_score : sqrt (p_nscore p / INR (length cells)) = grms res;
  t_narg : In (p_narg p) cells;
  t_max : p_max p = vzero \/ in_area (p_narg p) = true;
  t_stale : p_max p = s_max s \/ p_max p = res (p_narg p);
  t_undo : forall c, In c cells -> fold_left (undo1 (s_arg s) (step_of q s)) cells res c = s_res s c;
  t_buf : forall b c, In c cells -> fold_left (buffer1 (s_arg s) (step_of q s) res) cells b c = s_res s c;
  t_mundo : forall c, setf mdl (s_arg s) (vsub (mdl (s_arg s)) (step_of q s)) c = s_mdl s c
}.
Lemma turn_facts q s : inv q s ->
  let arg := s_arg s in let step := step_of q s in
  let p := fold_left (pass1 arg step) cells (Pass (s_res s) 0 (-1) (s_max s) arg) in
  turned q s (setf (s_mdl s) arg (vadd (s_mdl s arg) step)) (p_res p) p.
Proof.
  intros IV arg step p. destruct (pass_fold arg step cells (Pass (s_res s) 0 (-1) (s_max s) arg) (wraps_nodup arg (v_arg q s IV))) as (A & B & S & TOP & M).
  cbv zeta in *. fold p in A, B, S, TOP, M. cbn [p_res p_nscore p_max p_narg p_mmax] in A, B, S, M.
  assert (AI := v_arg q s IV). fold arg in AI.
  assert (RES : forall c, In c cells -> p_res p c = vsub (s_res s c) (vmul (ker (diff c arg)) step)).
  { intros c C. rewrite <- (wrap_diff c arg) at 1 2 by auto. apply A. auto. }
  constructor.
  - exact RES.
  - intros c C. rewrite RES by auto. rewrite gconv_set by auto. rewrite <- (v_cons q s IV c C). ring.
  - intros c C. unfold CleanModel.setf. destruct (ieq_spec arg c) as [<-|N]; [|apply (v_mask q s IV); auto].
    destruct (v_max q s IV) as [Z|Z]; [|fold arg in Z; congruence]. rewrite (v_mask q s IV) by auto.
    unfold step, step_of. rewrite Z. replace (vmul vzero q) with vzero by ring. rewrite scale0. ring.
  - unfold grms, gsum2. rewrite S, Rplus_0_l. rewrite <- (rsum_perm _ _ (fun c => norm2 (p_res p c)) (wraps_perm arg AI)), rsum_map. auto.
  - destruct M as [(_ & -> & _)|(n & N & -> & _)]; auto.
  - destruct M as [(-> & -> & _)|(n & N & E & [Q _] & _)]; [apply (v_max q s IV) | right; auto].
  - destruct M as [(-> & _)|(n & N & E & Q & -> & _)]; auto.
  - intros c C. destruct (undo_fold arg step cells (p_res p) (wraps_nodup arg AI)) as [U _]. cbv zeta in U.
    fold arg step. rewrite <- (wrap_diff c arg) at 1 by auto. rewrite U by auto. rewrite wrap_diff by auto. rewrite RES by auto. ring.
  - intros b c C. destruct (buffer_fold arg step (p_res p) cells b (wraps_nodup arg AI)) as [U _]. cbv zeta in U.
    fold arg step. rewrite <- (wrap_diff c arg) at 1 by auto. rewrite U by auto. rewrite wrap_diff by auto. rewrite RES by auto. ring.
  - intros c. fold arg step. rewrite setf_same. unfold CleanModel.setf. destruct (ieq_spec arg c) as [<-|N]; auto. ring.
Qed.

(* the score of a step taken from a zero residual *)
Lemma step_from_zero q s mdl res p : inv q s -> turned q s mdl res p -> (forall c, In c cells -> s_res s c = vzero) -> grms res = krms (step_of q s).
Proof.
  intros IV T Z. unfold grms, krms, gsum2, ksum. do 2 f_equal.
  rewrite <- (rsum_perm _ _ (fun c => norm2 (res c)) (wraps_perm (s_arg s) (v_arg q s IV))), rsum_map. apply rsum_ext. intros n N.
  rewrite (t_res q s mdl res p T) by (apply wrap_in; auto; apply (v_arg q s IV)). rewrite Z by (apply wrap_in; auto; apply (v_arg q s IV)).
  rewrite diff_wrap by (auto; apply (v_arg q s IV)). rewrite <- norm_opp. f_equal. ring.
Qed.
Lemma step_to_zero q s mdl res p : inv q s -> turned q s mdl res p -> (forall c, In c cells -> res c = vzero) -> grms (s_res s) = krms (step_of q s).
Proof.
  intros IV T Z. unfold grms, krms, gsum2, ksum. do 2 f_equal.
  rewrite <- (rsum_perm _ _ (fun c => norm2 (s_res s c)) (wraps_perm (s_arg s) (v_arg q s IV))), rsum_map. apply rsum_ext. intros n N. f_equal.
  assert (W : In (wrap n (s_arg s)) cells) by (apply wrap_in; auto; apply (v_arg q s IV)).
  assert (H := t_res q s mdl res p T _ W). rewrite Z in H by auto. rewrite diff_wrap in H by (auto; apply (v_arg q s IV)).
  replace (s_res s (wrap n (s_arg s))) with (vadd (vsub (s_res s (wrap n (s_arg s))) (vmul (ker n) (step_of q s))) (vmul (ker n) (step_of q s))) by ring.
  rewrite <- H. ring.
Qed.
Lemma krms_zero : krms vzero = 0.
Proof.
  unfold krms, ksum. rewrite rsum_const0.
  - unfold Rdiv. rewrite Rmult_0_l. apply sqrt_0.
  - intros n _. replace (vmul (ker n) vzero) with vzero by ring. apply norm_zero. auto.
Qed.

Definition done (s : state (I:=I) (V:=V)) (o : outcome (I:=I) (V:=V)) : Prop :=
  let '(rv, m, r) := o in conserved m r /\ masked m /\ (stop_if_div = true -> grms r <= first0) /\
  (1 <= s_i s)%Z /\ (rv = s_i s \/ (rv = (- s_i s)%Z /\ stop_if_div = true)).
Lemma turn_inv q s : inv q s ->
  match turn q s with
  | inl s' => inv q s' /\ (stop_if_div = true -> s_i s' = (s_i s + 1)%Z)
  | inr o => done s o
  end.
Proof.
  intros IV. assert (T := turn_facts q s IV). cbv zeta in T.
  unfold CleanModel.turn. fold (step_of q s).
  set (step := step_of q s) in *. set (arg := s_arg s) in *.
  set (mdl := setf (s_mdl s) arg (vadd (s_mdl s arg) step)) in *.
  set (p := fold_left (pass1 arg step) cells (Pass (s_res s) 0 (-1) (s_max s) arg)) in *.
  cbv zeta. rewrite (t_score _ _ _ _ _ T). set (ns := grms (p_res p)) in *.
  set (first := if Rltb (s_first s) 0 then ns else s_first s).
  assert (FN : 0 <= first0) by apply grms_nonneg.
  (* facts about the new score *)
  assert (SC : first = first0 /\ ((s_score s = -1 /\ ns = first0 /\ step = vzero /\ s_max s = vzero) \/
     (s_score s = grms (s_res s) /\ (1 <= s_i s)%Z /\
      (s_score s <= first0 \/ (0 < s_best s /\ s_best s <= first0)) /\ (s_score s = 0 -> krms step <= first0 \/ (0 < s_best s /\ s_best s <= first0))))).
  { destruct (v_score q s IV) as [(S1 & S2 & S3 & S4 & _ & S5)|(S1 & S2 & S3 & S4 & S5 & S6)].
    - assert (ST : step = vzero). { unfold step, step_of. rewrite S4. replace (vmul vzero q) with vzero by ring. apply scale0. }
      assert (NF : ns = first0). { apply grms_ext. intros c C. rewrite (t_res _ _ _ _ _ T) by auto. fold step. rewrite ST, S5 by auto. ring. }
      split; [|left; auto]. unfold first. rewrite S2. replace (Rltb (-1) 0) with true by (symmetry; apply Rltb_true; lra). auto.
    - split; [|right; auto]. unfold first. rewrite S1. replace (Rltb first0 0) with false by (symmetry; apply Rltb_false; auto). auto. }
  destruct SC as [FI SC].
  (* the next state, whatever is buffered *)
  assert (NEXT : forall i best bm br, (0 <= i)%Z ->
     (0 < best -> conserved bm br /\ masked bm /\ grms br = best) -> (stop_if_div = true -> best = -1) -> (best = -1 \/ 0 < best) ->
     (ns <= first0 \/ (0 < best /\ best <= first0)) -> (0 < s_best s /\ s_best s <= first0 -> 0 < best /\ best <= first0) ->
     inv q (State (i + 1) mdl (p_res p) ns ns best first (p_max p) (p_narg p) bm br)).
  { intros i best bm br Hi HB HS HP HN HK. constructor; cbn [s_i s_mdl s_res s_score s_nscore s_best s_first s_max s_arg s_bmdl s_bres]; auto.
    - apply (t_cons _ _ _ _ _ T). - apply (t_mask _ _ _ _ _ T). - apply (t_narg _ _ _ _ _ T). - apply (t_max _ _ _ _ _ T). - lia.
    - right. split; auto. split; auto. split; auto. split; [lia|]. split; auto.
      intros Z. assert (RZ := grms_zero _ Z). unfold step_of. cbn [s_max].
      destruct (t_stale _ _ _ _ _ T) as [-> | ->].
      + fold (step_of q s). fold step. destruct SC as [(_ & _ & -> & _)|(S1 & _ & S2 & S3)]; [rewrite krms_zero; auto|].
        assert (KE := step_to_zero q s _ _ _ IV T RZ). fold step in KE. rewrite <- KE, <- S1.
        destruct S2 as [S2|S2]; auto.
      + left. rewrite RZ by apply (t_narg _ _ _ _ _ T). replace (vmul vzero q) with vzero by ring. rewrite scale0, krms_zero. auto. }
  assert (NS0 : 0 <= ns) by apply grms_nonneg.
  (* when the old score is not positive the new one is bounded, or a best one is buffered *)
  assert (LOW : s_score s <= 0 -> ns <= first0 \/ (0 < s_best s /\ s_best s <= first0)).
  { intros Z. destruct SC as [(_ & -> & _)|(S1 & _ & _ & S3)]; [left; lra|].
    assert (S0 : s_score s = 0) by (assert (X := grms_nonneg (s_res s)); lra).
    rewrite S1 in S0. rewrite <- S1 in S0 at 1. destruct (S3 ltac:(congruence)) as [S4|S4]; auto. left.
    unfold ns. rewrite (step_from_zero q s _ _ _ IV T); auto. apply grms_zero. congruence. }
  destruct (Rltb 0 (s_score s)) eqn:SP; cbn [andb].
  - apply Rltb_true in SP. destruct SC as [(S1 & _)|(S1 & SI & S2 & S3)]; [lra|].
    destruct (Rltb (s_score s) ns) eqn:DV.
    + apply Rltb_true in DV. destruct stop_if_div eqn:ST.
      * (* diverged: undo *)
        assert (BN : s_best s = -1) by (apply (v_stop q s IV); auto).
        assert (S2' : s_score s <= first0) by (destruct S2 as [S2|S2]; auto; lra).
        unfold done. rewrite ST. fold step. repeat split; auto.
        -- intros c C. assert (U := t_undo _ _ _ _ _ T c C). fold step arg in U. rewrite U. unfold gconv. rewrite (vsum_ext _ _ (fun a => vmul (ker (diff c a)) (s_mdl s a))).
           ++ apply (v_cons q s IV c C). ++ intros a A. f_equal. apply (t_mundo _ _ _ _ _ T).
        -- intros c C. rewrite <- (v_mask q s IV c C). apply (t_mundo _ _ _ _ _ T).
        -- intros _. rewrite (grms_ext _ (s_res s)) by (apply (t_undo _ _ _ _ _ T)). lra.
      * destruct (Rltb (s_best s) 0 || Rltb (s_score s) (s_best s)) eqn:BB.
        -- split; [|discriminate]. apply NEXT; auto; try lia; try discriminate.
           ++ intros _. split; [|split].
              ** intros c C. assert (U := t_buf _ _ _ _ _ T (s_bres s) c C). fold step arg in U. rewrite U. unfold gconv. rewrite (vsum_ext _ _ (fun a => vmul (ker (diff c a)) (s_mdl s a))).
                 --- apply (v_cons q s IV c C). --- intros a A. f_equal. apply (t_mundo _ _ _ _ _ T).
              ** intros c C. rewrite <- (v_mask q s IV c C). apply (t_mundo _ _ _ _ _ T).
              ** rewrite (grms_ext _ (s_res s)) by (apply (t_buf _ _ _ _ _ T)). auto.
           ++ right. apply orb_true_iff in BB as [BB|BB]; apply Rltb_true in BB; split; auto; destruct S2 as [S2|S2]; lra.
           ++ intros K. apply orb_true_iff in BB as [BB|BB]; apply Rltb_true in BB; lra.
        -- split; [|discriminate]. apply orb_false_iff in BB as [B1 B2]. apply Rltb_false in B1, B2.
           apply NEXT; auto; try discriminate; try apply (v_i q s IV); try apply (v_best q s IV); try apply (v_bestpos q s IV).
           right. destruct (v_bestpos q s IV) as [K|K]; [lra|]. split; auto. destruct S2 as [S2|S2]; lra.
    + apply Rltb_false in DV.
      assert (S2' : ns <= first0 \/ (0 < s_best s /\ s_best s <= first0)) by (destruct S2 as [S2|S2]; [left; lra | right; auto]).
      destruct (Rltb (change (s_score s) ns / first) tol).
      * unfold done. repeat split; auto; try apply (t_cons _ _ _ _ _ T); try apply (t_mask _ _ _ _ _ T).
        intros ST. assert (BN := v_stop q s IV ST). fold ns. destruct S2' as [S2'|S2']; lra.
      * destruct (negb stop_if_div && _) eqn:NB.
        -- apply andb_true_iff in NB as [NB _]. apply negb_true_iff in NB. split; [|congruence].
           apply NEXT; auto; try lia; try apply (v_best q s IV); try apply (v_bestpos q s IV). apply (v_stop q s IV).
        -- split; [|auto]. apply NEXT; auto; try apply (v_i q s IV); try apply (v_best q s IV); try apply (v_bestpos q s IV). apply (v_stop q s IV).
  - apply Rltb_false in SP. specialize (LOW SP).
    destruct (negb stop_if_div && _) eqn:NB.
    + apply andb_true_iff in NB as [NB _]. apply negb_true_iff in NB. split; [|congruence].
      apply NEXT; auto; try lia; try apply (v_best q s IV); try apply (v_bestpos q s IV). apply (v_stop q s IV).
    + split; [|auto]. apply NEXT; auto; try apply (v_i q s IV); try apply (v_best q s IV); try apply (v_bestpos q s IV). apply (v_stop q s IV).
Qed.

Definition result_ok (o : outcome (I:=I) (V:=V)) : Prop :=
  let '(rv, m, r) := o in conserved m r /\ masked m /\
  (stop_if_div = true \/ rv = maxiter -> grms r <= first0) /\
  (rv = maxiter \/ (1 <= Z.abs rv < maxiter)%Z) /\ (rv < 0 -> stop_if_div = true \/ maxiter < 0)%Z.
Lemma loop_ok q fuel : forall s o, inv q s -> loop fuel q s = Some o -> result_ok o.
Proof.
  induction fuel as [|fuel IH]; intros s o IV H; [discriminate|]. cbn [CleanModel.loop] in H.
  destruct (Z.ltb_spec (s_i s) maxiter) as [LT|GE].
  - assert (T := turn_inv q s IV). destruct (turn q s) as [s'|o'] eqn:E.
    + destruct T as [IV' _]. eapply IH; eauto.
    + injection H as ->. destruct o as [[rv m] r]. cbn in T |- *. destruct T as (T1 & T2 & T3 & T4 & T5).
      split; auto. split; auto. split; [|split].
      * intros [K|K]; auto. apply T3. destruct T5 as [->|[-> ?]]; auto. lia.
      * destruct T5 as [->|[-> ?]]; right; lia.
      * intros K. left. destruct T5 as [->|[-> ?]]; auto. lia.
  - injection H as <-. unfold finish.
    assert (B : result_ok (maxiter, s_mdl s, s_res s) \/ (0 < s_best s /\ s_best s < s_nscore s)).
    { destruct (Rlt_dec 0 (s_best s)) as [P|P]; [destruct (Rlt_dec (s_best s) (s_nscore s)) as [L|L]; auto|].
      - left. cbn. split; [apply (v_cons q s IV)|]. split; [apply (v_mask q s IV)|]. split; [|split; [auto | lia]]. intros _.
        destruct (v_score q s IV) as [(_ & _ & K & _)|(K1 & K2 & K3 & _ & K4 & _)]; [lra|]. rewrite <- K2. destruct K4; lra.
      - left. cbn. split; [apply (v_cons q s IV)|]. split; [apply (v_mask q s IV)|]. split; [|split; [auto | lia]]. intros _.
        destruct (v_score q s IV) as [(_ & _ & _ & _ & _ & K)|(K1 & K2 & K3 & _ & K4 & _)]; [rewrite (grms_ext _ res0) by auto; unfold first0; lra|].
        rewrite <- K2. destruct K4; lra. }
    destruct (Rltb 0 (s_best s) && Rltb (s_best s) (s_nscore s)) eqn:C.
    + apply andb_true_iff in C as [C1 C2]. apply Rltb_true in C1, C2. destruct (v_best q s IV C1) as (B1 & B2 & B3).
      cbn. split; auto. split; auto. split; [|split; [auto|lia]]. intros _.
      destruct (v_score q s IV) as [(_ & _ & K & _)|(K1 & K2 & K3 & _ & K4 & _)]; [lra|]. rewrite B3. destruct K4; lra.
    + destruct B as [B|[B1 B2]]; auto. apply Rltb_true in B1, B2. rewrite B1, B2 in C. discriminate.
Qed.
(* with stop_if_div the loop ends after at most maxiter turns *)
Lemma loop_ends q : stop_if_div = true -> forall fuel s, inv q s -> (Z.to_nat (maxiter - s_i s) < fuel)%nat -> exists o, loop fuel q s = Some o.
Proof.
  intros ST. induction fuel as [|fuel IH]; intros s IV L; [lia|]. cbn [CleanModel.loop].
  destruct (Z.ltb_spec (s_i s) maxiter) as [LT|GE]; [|eauto].
  assert (T := turn_inv q s IV). destruct (turn q s) as [s'|o']; [|eauto]. destruct T as [IV' Q]. specialize (Q ST).
  apply IH; auto. lia.
Qed.
Lemma clean_ok fuel o :
  clean_loop ieq cells wrap origin vzero vadd vsub vmul scale norm2 vpos inverse change ker area gain tol maxiter stop_if_div pos_def fuel mdl0 res0 = Some o ->
  result_ok o.
Proof. unfold clean_loop. apply loop_ok. apply start_inv. Qed.
Lemma clean_ends fuel : stop_if_div = true -> (Z.to_nat maxiter < fuel)%nat -> exists o,
  clean_loop ieq cells wrap origin vzero vadd vsub vmul scale norm2 vpos inverse change ker area gain tol maxiter stop_if_div pos_def fuel mdl0 res0 = Some o.
Proof. intros ST L. unfold clean_loop. apply loop_ends; auto. apply start_inv. cbn. rewrite Z.sub_0_r. auto. Qed.
(* the last step before the loop is left: it raised the score and was undone, or it lowered it
   by little *)
Definition last_step (o : outcome (I:=I) (V:=V)) : Prop :=
  let '(rv, _, r) := o in
  ((rv < 0)%Z /\ stop_if_div = true /\ exists a step, In a cells /\ 0 < grms r /\ grms r < grms (fun c => vsub (r c) (vmul (ker (diff c a)) step))) \/
  ((1 <= rv < maxiter)%Z /\ exists a step r0, In a cells /\ (forall c, In c cells -> r c = vsub (r0 c) (vmul (ker (diff c a)) step)) /\
     0 < grms r0 /\ grms r <= grms r0 /\ change (grms r0) (grms r) / first0 < tol) \/
  (rv = maxiter).
Lemma turn_last q s o : inv q s -> (s_i s < maxiter)%Z -> turn q s = inr o -> last_step o.
Proof.
  intros IV LT H. assert (T := turn_facts q s IV). cbv zeta in T.
  unfold CleanModel.turn in H. fold (step_of q s) in H.
  set (step := step_of q s) in *. set (arg := s_arg s) in *.
  set (mdl := setf (s_mdl s) arg (vadd (s_mdl s arg) step)) in *.
  set (p := fold_left (pass1 arg step) cells (Pass (s_res s) 0 (-1) (s_max s) arg)) in *.
  cbv zeta in H. rewrite (t_score _ _ _ _ _ T) in H. set (ns := grms (p_res p)) in *.
  set (first := if Rltb (s_first s) 0 then ns else s_first s) in *.
  assert (FI : 0 < s_score s -> first = first0 /\ s_score s = grms (s_res s) /\ (1 <= s_i s)%Z).
  { intros P. destruct (v_score q s IV) as [(S1 & _)|(S1 & S2 & S3 & S4 & S5 & S6)]; [lra|].
    split; auto. unfold first. rewrite S1. replace (Rltb first0 0) with false; auto. symmetry. apply Rltb_false. apply grms_nonneg. }
  destruct (Rltb 0 (s_score s)) eqn:SP; cbn [andb] in H; [|destruct (negb _ && _); discriminate].
  apply Rltb_true in SP. destruct (FI SP) as (F1 & F2 & F3). destruct (Rltb (s_score s) ns) eqn:DV.
  - apply Rltb_true in DV. destruct stop_if_div eqn:ST.
    + injection H as <-. left. split; [lia|]. split; auto. exists arg, step. split; [apply (v_arg q s IV)|].
      assert (U : grms (fold_left (undo1 arg step) cells (p_res p)) = grms (s_res s)) by (apply grms_ext; apply (t_undo _ _ _ _ _ T)).
      rewrite U, <- F2. split; auto. replace (grms _) with ns; auto. apply grms_ext. intros c C.
      rewrite (t_res _ _ _ _ _ T c C). assert (X := t_undo _ _ _ _ _ T c C). fold arg step in X |- *. rewrite X. auto.
    + destruct (Rltb (s_best s) 0 || Rltb (s_score s) (s_best s)); discriminate.
  - apply Rltb_false in DV. destruct (Rltb (change (s_score s) ns / first) tol) eqn:TO.
    + injection H as <-. apply Rltb_true in TO. right. left. split; [lia|]. exists arg, step, (s_res s). split; [apply (v_arg q s IV)|].
      split; [intros c C; apply (t_res _ _ _ _ _ T c C)|]. rewrite <- F2, <- F1. fold ns. auto.
    + destruct (negb _ && _); discriminate.
Qed.
Lemma loop_last q fuel : forall s o, inv q s -> loop fuel q s = Some o -> last_step o.
Proof.
  induction fuel as [|fuel IH]; intros s o IV H; [discriminate|]. cbn [CleanModel.loop] in H.
  destruct (Z.ltb_spec (s_i s) maxiter) as [LT|GE].
  - assert (T := turn_inv q s IV). destruct (turn q s) as [s'|o'] eqn:E.
    + destruct T as [IV' _]. eapply IH; eauto.
    + injection H as ->. eapply turn_last; eauto.
  - injection H as <-. unfold finish. destruct (_ && _); cbn; auto.
Qed.
Lemma clean_last fuel o :
  clean_loop ieq cells wrap origin vzero vadd vsub vmul scale norm2 vpos inverse change ker area gain tol maxiter stop_if_div pos_def fuel mdl0 res0 = Some o ->
  last_step o.
Proof. unfold clean_loop. apply loop_last. apply start_inv. Qed.
(* largest kernel value *)
Lemma kernel_gain_peak : (exists n, In n cells /\ in_area n = true /\ 0 < norm2 (ker n)) ->
  exists n0, In n0 cells /\ in_area n0 = true /\ 0 < norm2 (ker n0) /\ kernel_gain cells vzero norm2 inverse ker area = inverse (ker n0) (norm2 (ker n0)) /\
             forall n, In n cells -> in_area n = true -> norm2 (ker n) <= norm2 (ker n0).
Proof.
  intros EX. unfold kernel_gain.
  assert (F : forall l q mq, 0 <= mq -> let '(q', mq') := fold_left (fun '(q, mq) n => if Rltb mq (norm2 (ker n)) && in_area n then (ker n, norm2 (ker n)) else (q, mq)) l (q, mq) in
     mq <= mq' /\ (forall n, In n l -> in_area n = true -> norm2 (ker n) <= mq') /\
     ((q' = q /\ mq' = mq) \/ exists n, In n l /\ in_area n = true /\ q' = ker n /\ mq' = norm2 (ker n))).
  { induction l as [|n l IH]; intros q mq M; cbn [fold_left].
    - split; [lra|]. split; [intros ? []|]. auto.
    - destruct (Rltb mq (norm2 (ker n)) && in_area n) eqn:C.
      + apply andb_true_iff in C as [C1 C2]. apply Rltb_true in C1. specialize (IH (ker n) (norm2 (ker n)) (norm_nonneg _)).
        destruct (fold_left _ l _) as [q' mq']. destruct IH as (A & B & D). split; [lra|]. split.
        * intros m [<-|K] AR; auto.
        * right. destruct D as [[-> ->]|(m & M1 & M2)]; [exists n; split; [left; auto | auto] | exists m; split; [right; auto | auto]].
      + specialize (IH q mq M). destruct (fold_left _ l _) as [q' mq']. destruct IH as (A & B & D). split; auto. split.
        * intros m [<-|K] AR; auto. rewrite AR, andb_true_r in C. apply Rltb_false in C. lra.
        * destruct D as [D|(m & M1 & M2)]; auto. right. exists m. split; [right; auto | auto]. }
  specialize (F cells vzero 0 (Rle_refl 0)). destruct (fold_left _ cells _) as [q mq]. destruct F as (A & B & [[-> ->]|(n & N1 & N2 & -> & ->)]).
  - destruct EX as (n & N1 & N2 & N3). specialize (B n N1 N2). lra.
  - exists n. split; auto. split; auto. destruct EX as (n1 & N3 & N4 & N5). specialize (B n1 N3 N4) as B1. split; [lra|]. auto.
Qed.

Notation loopm m := (CleanModel.loop ieq cells wrap vadd vsub vmul scale norm2 vpos change ker area gain tol m stop_if_div pos_def).
(* states after a number of turns *)
Fixpoint after (k : nat) (q : V) : option (state (I:=I) (V:=V)) :=
  match k with
  | O => Some (start mdl0 res0)
  | S k => match after k q with Some s => match turn q s with inl s' => Some s' | inr _ => None end | None => None end
  end.
Lemma after_inv q k : stop_if_div = true -> forall s, after k q = Some s -> inv q s /\ s_i s = Z.of_nat k.
Proof.
  intros ST. induction k as [|k IH]; intros s E; cbn [after] in E.
  - injection E as <-. split; auto. apply start_inv.
  - destruct (after k q) as [s0|]; [|discriminate]. destruct (IH s0 eq_refl) as [IV SI].
    assert (T := turn_inv q s0 IV).
    destruct (turn q s0) as [s'|]; [|discriminate]. injection E as <-. destruct T as [T1 T2]. split; auto. rewrite (T2 ST). lia.
Qed.
(* the loop from the state after k turns *)
Lemma loop_after q m rv mm rr : stop_if_div = true -> (0 < m)%Z -> forall fuel k s, after k q = Some s -> loopm m fuel q s = Some (rv, mm, rr) -> rv = m -> (Z.of_nat k <= m)%Z ->
  exists s', after (Z.to_nat m) q = Some s' /\ mm = s_mdl s' /\ rr = s_res s'.
Proof.
  intros ST MP. induction fuel as [|fuel IH]; intros k s A H E L; [discriminate|]. cbn [CleanModel.loop] in H.
  destruct (after_inv q k ST s A) as [IV SI]. rewrite SI in H. destruct (Z.ltb_spec (Z.of_nat k) m) as [LT|GE].
  - assert (T := turn_inv q s IV).
    destruct (turn q s) as [s'|o] eqn:TE.
    + apply (IH (S k) s'); auto; [cbn [after]; rewrite A, TE; auto | lia].
    + injection H as ->. destruct T as (_ & _ & _ & T1 & T2). rewrite SI in *. destruct T2 as [T2|[T2 _]]; lia.
  - assert (K : k = Z.to_nat m) by lia. subst k. exists s. split; auto.
    assert (B := v_stop q s IV ST). unfold finish in H. rewrite B in H.
    replace (Rltb 0 (-1)) with false in H by (symmetry; apply Rltb_false; lra). cbn [andb] in H. injection H as _ <- <-. auto.
Qed.
Lemma loop_to q m : stop_if_div = true -> (0 < m)%Z -> forall s', after (Z.to_nat m) q = Some s' -> forall d k s, after k q = Some s -> (Z.of_nat k + Z.of_nat d = m)%Z ->
  forall fuel, (d < fuel)%nat -> loopm m fuel q s = Some (m, s_mdl s', s_res s').
Proof.
  intros ST MP s' A'. induction d as [|d IH]; intros k s A E fuel L; (destruct fuel as [|fuel]; [lia|]); cbn [CleanModel.loop];
    destruct (after_inv q k ST s A) as [IV SI]; rewrite SI.
  - assert (K : k = Z.to_nat m) by lia. subst k. rewrite A in A'. injection A' as <-.
    replace (Z.of_nat (Z.to_nat m) <? m)%Z with false by (symmetry; apply Z.ltb_ge; lia).
    assert (B := v_stop q s IV ST). unfold finish. rewrite B.
    replace (Rltb 0 (-1)) with false by (symmetry; apply Rltb_false; lra). auto.
  - replace (Z.of_nat k <? m)%Z with true by (symmetry; apply Z.ltb_lt; lia).
    destruct (turn q s) as [s1|o] eqn:TE.
    + apply (IH (S k) s1); [cbn [after]; rewrite A, TE; auto | lia | lia].
    + exfalso. assert (N : forall j, after (S k + j) q = None).
      { induction j as [|j IHj]; [rewrite Nat.add_0_r; cbn [after]; rewrite A, TE; auto|]. rewrite Nat.add_succ_r. cbn [after]. rewrite IHj. auto. }
      replace (Z.to_nat m) with (S k + d)%nat in A' by lia. rewrite N in A'. discriminate.
Qed.

(* what the maximum recorded at the end of a turn is *)
Lemma turn_next q s s' : inv q s -> turn q s = inl s' ->
  (In (s_arg s') cells /\ qualifies (s_res s') (s_arg s') /\ s_max s' = s_res s' (s_arg s') /\
   forall c, In c cells -> qualifies (s_res s') c -> norm2 (s_res s' c) <= norm2 (s_res s' (s_arg s'))) \/
  (forall c, In c cells -> ~ qualifies (s_res s') c).
Proof.
  intros IV H. unfold CleanModel.turn in H. cbv zeta in H. fold (step_of q s) in H.
  set (step := step_of q s) in *. set (arg := s_arg s) in *.
  set (p := fold_left (pass1 arg step) cells (Pass (s_res s) 0 (-1) (s_max s) arg)) in *.
  assert (E : s_res s' = p_res p /\ s_arg s' = p_narg p /\ s_max s' = p_max p).
  { repeat match type of H with (if ?b then _ else _) = _ => destruct b end; try discriminate; injection H as <-; auto. }
  destruct E as (-> & -> & ->). assert (AI : In arg cells) by apply (v_arg q s IV).
  destruct (pass_fold arg step cells (Pass (s_res s) 0 (-1) (s_max s) arg) (wraps_nodup arg AI)) as (A & B & S & TOP & M).
  cbv zeta in *. fold p in A, B, S, TOP, M. cbn [p_res p_nscore p_max p_narg p_mmax] in M.
  assert (TOP' : forall c, In c cells -> qualifies (p_res p) c -> norm2 (p_res p c) <= p_mmax p).
  { intros c C Q. rewrite <- (wrap_diff c arg) in Q |- * by auto. apply TOP; auto. }
  destruct M as [(_ & _ & M)|(n & N & M1 & M2 & M3 & M4 & M5)].
  - right. intros c C Q. specialize (TOP' c C Q). assert (X := norm_nonneg (p_res p c)). lra.
  - left. split; [rewrite M1; auto|]. split; auto. split; auto. intros c C Q. rewrite <- M3, <- M4. auto.
Qed.
Lemma turn_mdl q s s' : turn q s = inl s' -> s_mdl s' = setf (s_mdl s) (s_arg s) (vadd (s_mdl s (s_arg s)) (scale gain (vmul (s_max s) q))).
Proof.
  intros H. unfold CleanModel.turn in H. cbv zeta in H.
  repeat match type of H with (if ?b then _ else _) = _ => destruct b end; try discriminate; injection H as <-; reflexivity.
Qed.
Notation cleanm m := (clean_loop ieq cells wrap origin vzero vadd vsub vmul scale norm2 vpos inverse change ker area gain tol m stop_if_div pos_def).
(* one more iteration adds one component, at a maximum of the residual inside the area *)
Lemma one_component k fuel m' r' : stop_if_div = true -> (1 <= k)%Z -> cleanm (k + 1)%Z fuel mdl0 res0 = Some ((k + 1)%Z, m', r') ->
  exists m r, cleanm k fuel mdl0 res0 = Some (k, m, r) /\
   ((exists a, In a cells /\ qualifies r a /\ (forall c, In c cells -> qualifies r c -> norm2 (r c) <= norm2 (r a)) /\
               m' a = vadd (m a) (scale gain (vmul (r a) (kernel_gain cells vzero norm2 inverse ker area))) /\ forall c, c <> a -> m' c = m c) \/
    (forall c, In c cells -> ~ qualifies r c)).
Proof.
  intros ST K H. unfold clean_loop in *. set (q := kernel_gain cells vzero norm2 inverse ker area) in *.
  assert (FU : (Z.to_nat k < fuel)%nat).
  { (* the loop made k + 1 turns *)
    assert (G : forall fuel j s, after j q = Some s -> loopm (k + 1)%Z fuel q s = Some ((k + 1)%Z, m', r') -> (Z.of_nat j <= k + 1)%Z -> (k + 1 - Z.of_nat j < Z.of_nat fuel)%Z).
    { clear H fuel. induction fuel as [|fuel IH]; intros j s A H L; [discriminate|]. cbn [CleanModel.loop] in H.
      destruct (after_inv q j ST s A) as [IV SI]. rewrite SI in H. destruct (Z.ltb_spec (Z.of_nat j) (k + 1)) as [LT|GE]; [|lia].
      assert (T := turn_inv q s IV). destruct (turn q s) as [s1|o] eqn:TE.
      - assert (Z := IH (S j) s1 ltac:(cbn [after]; rewrite A, TE; auto) H ltac:(lia)). lia.
      - injection H as ->. destruct T as (_ & _ & _ & T1 & T2). rewrite SI in *. destruct T2 as [T2|[T2 _]]; lia. }
    assert (X := G fuel 0%nat _ eq_refl H ltac:(lia)). lia. }
  destruct (loop_after q (k + 1) _ _ _ ST ltac:(lia) fuel 0%nat _ eq_refl H eq_refl ltac:(lia)) as (s2 & A2 & -> & ->).
  replace (Z.to_nat (k + 1)) with (S (Z.to_nat k)) in A2 by lia. cbn [after] in A2.
  destruct (after (Z.to_nat k) q) as [s1|] eqn:A1; [|discriminate]. destruct (turn q s1) as [s2'|] eqn:T2; [|discriminate]. injection A2 as ->.
  exists (s_mdl s1), (s_res s1). split; [apply (loop_to q k ST ltac:(lia) s1 A1 (Z.to_nat k) 0%nat _ eq_refl ltac:(lia) fuel FU)|].
  replace (Z.to_nat k) with (S (Z.to_nat (k - 1))) in A1 by lia. cbn [after] in A1.
  destruct (after (Z.to_nat (k - 1)) q) as [s0|] eqn:A0; [|discriminate]. destruct (turn q s0) as [s1'|] eqn:T1; [|discriminate]. injection A1 as ->.
  destruct (after_inv q _ ST s0 A0) as [IV0 _]. destruct (turn_next q s0 s1 IV0 T1) as [(N1 & N2 & N3 & N4)|N]; [left|right; auto].
  exists (s_arg s1). split; auto. split; auto. split; auto. rewrite (turn_mdl q s1 s2 T2), N3. split; [apply setf_same|].
  intros c C. apply setf_other. auto.
Qed.

(* pos_def: components only grow the model *)
Section Grow.
Variables (q : V) (vle : V -> V -> Prop).
Hypothesis vle_refl : forall x, vle x x.
Hypothesis vle_trans : forall x y z, vle x y -> vle y z -> vle x z.
Hypothesis vle_step : forall x v, v = vzero \/ vpos v = true -> vle x (vadd x (scale gain (vmul v q))).
Hypothesis PD : pos_def = true.
Definition grows (s : state (I:=I) (V:=V)) : Prop :=
  (forall c, vle (mdl0 c) (s_mdl s c)) /\ (0 < s_best s -> forall c, vle (mdl0 c) (s_bmdl s c)) /\ (s_max s = vzero \/ vpos (s_max s) = true).
Lemma turn_grows s : inv q s -> grows s -> match turn q s with inl s' => grows s' | inr (rv, m, r) => forall c, vle (mdl0 c) (m c) end.
Proof.
  intros IV (G1 & G2 & G3). assert (T := turn_facts q s IV). cbv zeta in T.
  assert (AI := v_arg q s IV).
  destruct (pass_fold (s_arg s) (step_of q s) cells (Pass (s_res s) 0 (-1) (s_max s) (s_arg s)) (wraps_nodup _ AI)) as (_ & _ & _ & _ & M).
  cbv zeta in M. unfold CleanModel.turn. fold (step_of q s).
  set (p := fold_left (pass1 (s_arg s) (step_of q s)) cells (Pass (s_res s) 0 (-1) (s_max s) (s_arg s))) in *. cbv zeta.
  set (mdl := setf (s_mdl s) (s_arg s) (vadd (s_mdl s (s_arg s)) (step_of q s))) in *.
  assert (PM : p_max p = vzero \/ vpos (p_max p) = true).
  { destruct M as [(M & _)|(n & _ & _ & [_ Q] & M & _)]; [cbn in M; rewrite M; auto|]. rewrite M. right. destruct Q; congruence. }
  assert (GM : forall c, vle (mdl0 c) (mdl c)).
  { intros c. unfold mdl, CleanModel.setf. destruct (ieq_spec (s_arg s) c) as [<-|N]; auto. eapply vle_trans; [apply G1|]. apply vle_step. auto. }
  assert (GU : forall c, vle (mdl0 c) (setf mdl (s_arg s) (vsub (mdl (s_arg s)) (step_of q s)) c)).
  { intros c. assert (U := t_mundo _ _ _ _ _ T c). rewrite U. auto. }
  repeat match goal with |- match (if ?b then _ else _) with _ => _ end => destruct b end; auto; split; cbn [s_mdl s_best s_bmdl s_max]; auto.
Qed.
Lemma loop_grows fuel : forall s rv m r, inv q s -> grows s -> loop fuel q s = Some (rv, m, r) -> forall c, vle (mdl0 c) (m c).
Proof.
  induction fuel as [|fuel IH]; intros s rv m r IV G H; [discriminate|]. cbn [CleanModel.loop] in H.
  destruct (s_i s <? maxiter)%Z.
  - assert (T := turn_inv q s IV). assert (TG := turn_grows s IV G). destruct (turn q s) as [s'|o].
    + destruct T as [T _]. eapply IH; eauto.
    + injection H as ->. auto.
  - destruct G as (G1 & G2 & _). unfold finish in H. destruct (Rltb 0 (s_best s) && _) eqn:C; injection H as _ <- _; auto.
    apply G2. apply andb_true_iff in C as [C _]. apply Rltb_true; auto.
Qed.
Lemma start_grows : grows (start mdl0 res0).
Proof. split; [cbn; auto|]. split; [cbn; intros; lra|]. left. auto. Qed.
End Grow.
Lemma clean_grows (vle : V -> V -> Prop) fuel rv m r : (forall x, vle x x) -> (forall x y z, vle x y -> vle y z -> vle x z) -> pos_def = true ->
  (forall x v, v = vzero \/ vpos v = true -> vle x (vadd x (scale gain (vmul v (kernel_gain cells vzero norm2 inverse ker area))))) ->
  cleanm maxiter fuel mdl0 res0 = Some (rv, m, r) -> forall c, vle (mdl0 c) (m c).
Proof.
  intros A B C0 D H. unfold clean_loop in H. refine (loop_grows _ vle B D C0 fuel _ rv m r _ _ H); [apply start_inv | apply start_grows; auto].
Qed.

(* without stop_if_div an all-zero residual is cleaned for ever *)
Lemma hang : stop_if_div = false -> (2 <= maxiter)%Z -> (forall c, In c cells -> res0 c = vzero) ->
  forall fuel, cleanm maxiter fuel mdl0 res0 = None.
Proof.
  intros ST MX RZ fuel. unfold clean_loop. set (q := kernel_gain cells vzero norm2 inverse ker area).
  assert (G : forall fuel s, inv q s -> s_max s = vzero -> s_best s = -1 -> s_score s <= 0 -> (s_i s <= 1)%Z ->
      (forall c, In c cells -> s_res s c = vzero) -> loop fuel q s = None).
  { clear fuel. induction fuel as [|fuel IH]; intros s IV M B S L Z; [auto|]. cbn [CleanModel.loop].
    replace (s_i s <? maxiter)%Z with true by (symmetry; apply Z.ltb_lt; lia).
    assert (T := turn_facts q s IV). cbv zeta in T. assert (TI := turn_inv q s IV).
    unfold CleanModel.turn in *. fold (step_of q s) in *.
    set (p := fold_left (pass1 (s_arg s) (step_of q s)) cells (Pass (s_res s) 0 (-1) (s_max s) (s_arg s))) in *. cbv zeta in *.
    rewrite ST, B in *. replace (Rltb 0 (s_score s)) with false in * by (symmetry; apply Rltb_false; auto).
    replace (Rltb (-1) 0) with true in * by (symmetry; apply Rltb_true; lra). cbn [andb orb negb] in *.
    assert (ZR : forall c, In c cells -> p_res p c = vzero).
    { intros c C. rewrite (t_res _ _ _ _ _ T c C), (Z c C). unfold step_of. rewrite M. replace (vmul vzero q) with vzero by ring. rewrite scale0. ring. }
    apply IH; cbn [s_max s_best s_score s_i s_res]; auto; try apply TI; try lia.
    - destruct (t_stale _ _ _ _ _ T) as [-> | ->]; auto. apply ZR. apply (t_narg _ _ _ _ _ T).
    - rewrite (t_score _ _ _ _ _ T). rewrite (grms_ext _ (fun _ => vzero)) by auto. unfold grms, gsum2. rewrite rsum_const0 by (intros; apply norm_zero; auto).
      unfold Rdiv. rewrite Rmult_0_l, sqrt_0. lra. }
  apply G; cbn; auto; try lra; try lia. apply start_inv.
Qed.
End G.
