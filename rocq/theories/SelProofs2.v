(* Selection: antenna tables, clauses, the stop limit, reading. *)
From Verif Require Import Base BaselineModel BaselineProofs SelModel SelSpec SelProofs.
From Coq Require Import QArith Qround Sorted Lqa.
Open Scope Z_scope.
Ltac Zify.zify_post_hook ::= idtac.

(* ---- the triangular index ---- *)
Lemma even_prod n : exists q, n * (n - 1) = 2 * q.
Proof.
  destruct (Z.Even_or_Odd n) as [[m E]|[m E]]; subst n.
  - exists (m * (2 * m - 1)). ring.
  - exists ((2 * m + 1) * m). ring.
Qed.
Lemma half_prod n : 2 * (n * (n - 1) / 2) = n * (n - 1).
Proof.
  destruct (even_prod n) as [q E]. rewrite E. rewrite (Z.mul_comm 2 q), Z.div_mul by lia. ring.
Qed.
Lemma tri_inj a b a' b' : 1 <= b <= a -> 1 <= b' <= a' -> tri a b = tri a' b' -> a = a' /\ b = b'.
Proof.
  unfold tri. intros H H' E. assert (P := half_prod a). assert (P' := half_prod a').
  assert (Q1 : a * (a - 1) + 2 * b = a' * (a' - 1) + 2 * b') by lia. clear E P P'.
  assert (a = a') by (destruct (Z.lt_trichotomy a a') as [L|[L|L]]; [exfalso; nia | auto | exfalso; nia]).
  subst. split; [auto|lia].
Qed.
Lemma tri_diag i : ((i + 1) * i) / 2 + i = tri (i + 1) (i + 1).
Proof. unfold tri. replace (i + 1 - 1) with i by ring. lia. Qed.

Lemma tri_bound a b : 1 <= b <= a -> a <= MAXANT -> 0 <= tri a b < MAXANT * (MAXANT + 1) / 2.
Proof.
  intros H A. unfold tri, MAXANT in *. assert (P := half_prod a).
  change (2048 * (2048 + 1) / 2) with 2098176. nia.
Qed.

Definition pairs (i j : Z) : Prop := 0 <= i <= j /\ j <= 2046.
Definition cell (i j : Z) : Z := tri (j + 1) (i + 1).

Lemma existsb_eq {A} (f : A -> Z) p l : existsb (fun x => p =? f x) l = true <-> exists x, In x l /\ p = f x.
Proof.
  rewrite existsb_exists. split; intros (x & H & E); exists x; split; auto; apply Z.eqb_eq; auto.
Qed.
Lemma bool_iff a b : (a = true <-> b = true) -> a = b.
Proof. destruct a, b; intuition congruence. Qed.

Lemma set_auto_cell t d i j : pairs i j -> set_auto t d (cell i j) = if i =? j then d else t (cell i j).
Proof.
  intros [H J]. unfold set_auto.
  replace (existsb _ _) with (i =? j); auto. apply bool_iff. rewrite Z.eqb_eq. rewrite existsb_exists.
  split.
  - intros <-. exists (Z.to_nat i). split; [apply in_seq; lia|].
    cbv zeta. rewrite Z2Nat.id by lia. rewrite tri_diag. apply Z.eqb_refl.
  - intros (k & Hk & E). cbv zeta in E. rewrite tri_diag in E. apply Z.eqb_eq in E. unfold cell in E.
    apply tri_inj in E; lia.
Qed.

Lemma set_ants_cell t a b d i j : pairs i j -> -1 <= a <= 2047 -> -1 <= b <= 2047 ->
  set_ants t (Z.max (a + 1) (b + 1)) (Z.min (a + 1) (b + 1)) d (cell i j) =
  if (let has x := (i =? x) || (j =? x) in
      if (a =? -1) && (b =? -1) then true
      else if a =? -1 then has b else if b =? -1 then has a
      else ((i =? a) && (j =? b)) || ((i =? b) && (j =? a)))
  then d else t (cell i j).
Proof.
  intros [H J] A B. cbv zeta. unfold set_ants.
  assert (W : forall m, 0 <= m <= 2047 ->
    (existsb (fun x => cell i j =? tri (m + 1) x) (zrange 1 (m + 1 + 1)) ||
     existsb (fun x => cell i j =? tri x (m + 1)) (zrange (m + 1 + 1) (MAXANT + 1))) =
    ((i =? m) || (j =? m))).
  { intros m Hm. apply bool_iff. rewrite !orb_true_iff, !existsb_eq, !Z.eqb_eq. unfold cell, MAXANT.
    split.
    - intros [(x & Hx & E)|(x & Hx & E)]; apply in_zrange in Hx; apply tri_inj in E; lia.
    - intros [E|E]; subst m.
      + destruct (Z.eq_dec i j) as [->|NE].
        * left. exists (j + 1). split; [apply in_zrange; lia | auto].
        * right. exists (j + 1). split; [apply in_zrange; lia | auto].
      + left. exists (i + 1). split; [apply in_zrange; lia | auto]. }
  destruct (Z.eqb_spec a (-1)) as [->|NA]; destruct (Z.eqb_spec b (-1)) as [->|NB]; cbn [andb].
  - change (Z.max (-1 + 1) (-1 + 1)) with 0. cbn [Z.eqb].
    destruct (tri_bound (j + 1) (i + 1)) as [T1 T2]; [lia | unfold MAXANT; lia|].
    unfold cell. apply Z.leb_le in T1. apply Z.ltb_lt in T2. rewrite T1, T2. reflexivity.
  - rewrite Z.max_r, Z.min_l by lia. change (-1 + 1) with 0.
    destruct (Z.eqb_spec (b + 1) 0); [lia|]. cbn [Z.eqb]. rewrite W by lia. reflexivity.
  - rewrite Z.max_l, Z.min_r by lia. change (-1 + 1) with 0.
    destruct (Z.eqb_spec (a + 1) 0); [lia|]. cbn [Z.eqb]. rewrite W by lia. reflexivity.
  - destruct (Z.eqb_spec (Z.max (a + 1) (b + 1)) 0); [lia|].
    destruct (Z.eqb_spec (Z.min (a + 1) (b + 1)) 0); [lia|].
    replace (cell i j =? _) with ((i =? a) && (j =? b) || (i =? b) && (j =? a)); auto.
    apply bool_iff. rewrite orb_true_iff, !andb_true_iff, !Z.eqb_eq. unfold cell. split.
    + intros [[-> ->]|[-> ->]].
      * rewrite Z.max_r, Z.min_l by lia. reflexivity.
      * rewrite Z.max_l, Z.min_r by lia. reflexivity.
    + intros E. apply tri_inj in E; lia.
Qed.

(* ---- a clause stands for a group of calls ---- *)
Definition opers_of (k : kind) (cs : list call) : list oper :=
  flat_map (fun c => match c with
    | CRange k' p1 p2 inc => if kind_eqb k' k then
        match range_params k' p1 p2 with Ok (lo, hi) => [Op k' (negb inc) lo hi] | Err => [] end else []
    | _ => [] end) cs.
Definition call_valid (c : call) : Prop :=
  match c with CRange k p1 p2 _ => exists q, range_params k p1 p2 = Ok q | _ => True end.

Record stands (c : clause) (cs : list call) : Prop := {
  st_sorted : StronglySorted ole (c_opers c);
  st_opers : forall k, filter (isk k) (c_opers c) = opers_of k cs;
  st_valid : Forall call_valid cs;
  st_sel : forall v, c_selants c = match ant_verdicts cs v with [] => false | _ => true end;
  st_ants : forall v, rec_ok v -> c_selants c = true ->
    c_ants c (cell (v_i v) (v_j v)) = negb (verdict (ant_verdicts cs v)) }.

Lemma stands_empty a : stands (empty_clause a) [].
Proof.
  constructor; simpl; auto; try discriminate; constructor.
Qed.

Lemma rec_pairs v : rec_ok v -> pairs (v_i v) (v_j v).
Proof. intros (A & B & _). split; auto. Qed.

Definition plain (c : call) : bool := match c with CRange _ _ _ _ | CAnt _ _ _ | CAuto _ => true | _ => false end.

Lemma ants_step c cs x inc cov t' :
  stands c cs ->
  (forall v, ant_verdicts [x] v = [(inc, cov v)]) ->
  (forall v, rec_ok v -> t' (cell (v_i v) (v_j v)) =
     if cov v then negb inc else start_ants c (negb inc) (cell (v_i v) (v_j v))) ->
  (forall k, opers_of k [x] = []) -> call_valid x ->
  stands (Cl (c_and c) true t' (c_opers c)) (cs ++ [x]).
Proof.
  intros S V T O CV. destruct S as [S1 S2 S3 S4 S5]. constructor; cbn [c_opers c_selants c_ants]; auto.
  - intros k. unfold opers_of in *. rewrite flat_map_app, O, app_nil_r. apply S2.
  - apply Forall_app. split; auto.
  - intros v. unfold ant_verdicts in *. rewrite flat_map_app, V.
    destruct (flat_map _ cs); reflexivity.
  - intros v Hv _. rewrite T by auto.
    replace (ant_verdicts (cs ++ [x]) v) with (ant_verdicts cs v ++ [(inc, cov v)])
      by (unfold ant_verdicts in *; rewrite flat_map_app, V; auto).
    rewrite verdict_snoc. cbn [fst snd]. unfold start_ants. specialize (S4 v).
    destruct (ant_verdicts cs v) eqn:E.
    + rewrite S4. destruct (cov v); auto.
    + rewrite S4. destruct (cov v); auto. rewrite S5, E by auto. reflexivity.
Qed.

Lemma clause_call_spec c cs x c' : stands c cs -> plain x = true -> clause_call c x = Ok c' ->
  stands c' (cs ++ [x]) /\ c_and c' = c_and c.
Proof.
  intros S P H. destruct x as [k p1 p2 inc | a b inc | inc | | | | n p]; try discriminate P; cbn [clause_call] in H.
  - destruct (range_params k p1 p2) as [[lo hi]|] eqn:R; cbn [bind] in H; [|discriminate].
    injection H as <-. split; auto. cbn [fst snd]. destruct S as [S1 S2 S3 S4 S5]. constructor; cbn [c_opers c_selants c_ants].
    + apply addoper_sorted; auto.
    + intros k'. rewrite addoper_filter by auto. rewrite S2. unfold opers_of. rewrite flat_map_app.
      cbn [flat_map]. f_equal. unfold isk. cbn [o_kind]. rewrite R. rewrite app_nil_r. destruct (kind_eqb k k'); reflexivity.
    + apply Forall_app. split; auto. constructor; auto. simpl. rewrite R. eauto.
    + intros v. unfold ant_verdicts in *. rewrite flat_map_app. cbn [flat_map]. rewrite app_nil_r. apply S4.
    + intros v Hv Hs. unfold ant_verdicts in *. rewrite flat_map_app. cbn [flat_map]. rewrite app_nil_r. apply S5; auto.
  - destruct (_ || _) eqn:G in H; [discriminate|]. injection H as <-. split; auto.
    rewrite !orb_false_iff, !Z.ltb_ge in G. unfold MAXANT in G. destruct G as [[[G1 G2] G3] G4].
    apply (ants_step c cs (CAnt a b inc) inc (fun v => covers_ant v a b)); auto.
    + intros v Hv. rewrite set_ants_cell by (auto using rec_pairs || lia). reflexivity.
    + simpl; auto.
  - injection H as <-. split; auto.
    apply (ants_step c cs (CAuto inc) inc (fun v => v_i v =? v_j v)); auto.
    + intros v Hv. rewrite set_auto_cell by auto using rec_pairs. reflexivity.
    + simpl; auto.
Qed.

(* ---- the decision of a clause ---- *)
Lemma gdisc_verdict n v k cs : rec_ok v -> 1 <= n -> Forall call_valid cs ->
  gdisc n v (opers_of k cs) = negb (verdict (kind_verdicts k cs n v)).
Proof.
  intros Hv Hn V.
  assert (E : map (fun o => (negb (o_discard o), hit n v o)) (opers_of k cs) = kind_verdicts k cs n v).
  { unfold opers_of, kind_verdicts. clear -Hv Hn V. induction cs as [|c cs IH]; auto.
    inversion V as [|? ? V1 V2]; subst. cbn [flat_map]. rewrite map_app, IH by auto. f_equal.
    destruct c; auto. destruct (kind_eqb k0 k) eqn:K; auto. apply kind_eqb_eq in K. subst k0.
    destruct V1 as [[lo hi] R]. rewrite R. cbn [map o_discard]. rewrite negb_involutive.
    rewrite (hit_covers _ _ _ _ _ _ _ _ Hv Hn R). reflexivity. }
  rewrite <- E. generalize (opers_of k cs) as l. intros l. clear.
  destruct l as [|o l]; auto. unfold gdisc, verdict. cbn [map].
  assert (G : forall l d, fold_left (gstep n v) l d =
    negb (fold_left (fun keep (x : bool * bool) => if snd x then fst x else keep) (map (fun o => (negb (o_discard o), hit n v o)) l) (negb d))).
  { clear. induction l as [|o l IH]; intros d; simpl.
    - rewrite negb_involutive; auto.
    - rewrite IH. unfold gstep at 1. f_equal. f_equal. destruct (hit n v o); reflexivity. }
  rewrite G. rewrite negb_involutive. cbn [map]. reflexivity.
Qed.

Lemma has_opers c cs f : stands c cs -> has f cs = false -> opers_have f (c_opers c) = false.
Proof.
  intros S H. destruct (opers_have f (c_opers c)) eqn:E; auto. exfalso.
  unfold opers_have in E. apply existsb_exists in E as (o & Ho & Fo).
  assert (I : In o (filter (isk (o_kind o)) (c_opers c))) by (apply filter_In; split; auto; apply kind_eqb_refl).
  rewrite (st_opers _ _ S) in I. unfold opers_of in I. apply in_flat_map in I as (x & Hx & Ix).
  destruct x as [k p1 p2 inc | | | | | |]; try contradiction.
  destruct (kind_eqb k (o_kind o)) eqn:K; try contradiction. apply kind_eqb_eq in K.
  assert (has f cs = true); [|congruence].
  unfold has. apply existsb_exists. exists (CRange k p1 p2 inc). split; auto. rewrite K. auto.
Qed.

Lemma clause_discard_spec c cs n v : stands c cs -> group_ok cs -> rec_ok v -> 1 <= n ->
  clause_discard c n v = negb (group_keeps cs n v).
Proof.
  intros S G Hv Hn. unfold clause_discard, group_keeps. rewrite negb_andb. f_equal.
  - unfold ants_discard. rewrite uvbasant_mkbl by (destruct Hv as (A & B & C); unfold ant_ok; lia).
    assert (Q := st_sel _ _ S v). destruct (c_selants c) eqn:E.
    + destruct Hv as (A & B & C). destruct (Z.ltb_spec (v_i v + 1) 1); [lia|].
      destruct (Z.ltb_spec MAXANT (v_j v + 1)); [unfold MAXANT in *; lia|]. cbn [orb].
      apply (st_ants _ _ S v); [split; auto | auto].
    + destruct (ant_verdicts cs v); [reflexivity | discriminate].
  - rewrite groups_all.
    + generalize all_kinds as ks. induction ks as [|k ks IH]; auto. cbn [existsb forallb]. rewrite negb_andb, IH. f_equal.
      rewrite (st_opers _ _ S). apply gdisc_verdict; auto. apply (st_valid _ _ S).
    + apply (st_sorted _ _ S).
    + destruct G as [G|G]; [left|right]; eapply has_opers; eauto.
Qed.

(* ---- programs ---- *)
Definition corr (l : list clause) (p : program) : Prop :=
  Forall2 (fun c g => c_and c = fst g /\ stands c (snd g)) l p.

Lemma corr_on_last x : plain x = true -> forall l p l', corr l p ->
  on_last (fun c => clause_call c x) l = Ok l' -> corr l' (to_last x p).
Proof.
  intros P l. induction l as [|c l IH]; intros p l' C H.
  - inversion C; subst. cbn [on_last] in H.
    destruct (clause_call (empty_clause true) x) as [c'|] eqn:E; cbn [bind] in H; [|discriminate].
    injection H as <-. destruct (clause_call_spec _ [] x c' (stands_empty true) P E) as [S A].
    simpl. constructor; [|constructor]. simpl. split; auto.
  - inversion C as [|? [a cs] ? p' [Ha Hs] C']; subst. destruct l as [|c2 l].
    + inversion C'; subst. cbn [on_last] in H.
      destruct (clause_call c x) as [c'|] eqn:E; cbn [bind] in H; [|discriminate]. injection H as <-.
      destruct (clause_call_spec _ _ x c' Hs P E) as [S A]. simpl. constructor; [|constructor]. simpl. split; auto. cbn [fst] in Ha. rewrite A. exact Ha.
    + change (on_last (fun c => clause_call c x) (c :: c2 :: l)) with
        (bind (on_last (fun c => clause_call c x) (c2 :: l)) (fun r => Ok (c :: r))) in H.
      destruct (on_last _ (c2 :: l)) as [r|] eqn:E; cbn [bind] in H; [|discriminate]. injection H as <-.
      inversion C' as [|? g2 ? p2 ? ?]; subst. 
      change (to_last x ((a, cs) :: g2 :: p2)) with ((a, cs) :: to_last x (g2 :: p2)).
      constructor; [split; auto|]. apply IH; auto.
Qed.

Lemma uvselect_corr l p x l' : corr l p -> uvselect l x = Ok l' -> corr l' (prog_step p x).
Proof.
  intros C H. destruct x as [k p1 p2 inc | a b inc | inc | | | | n q]; cbn [uvselect prog_step] in *;
    try (eapply corr_on_last; eauto; reflexivity).
  - injection H as <-. inversion C; subst; [constructor|].
    apply Forall2_app; auto. constructor; [|constructor]. split; [auto | apply stands_empty].
  - injection H as <-. inversion C; subst; [constructor|].
    apply Forall2_app; auto. constructor; [|constructor]. split; [auto | apply stands_empty].
  - injection H as <-. constructor.
  - injection H as <-. auto.
Qed.

(* the first group is always a conjunct *)
Definition first_and (p : program) : Prop := match p with [] => True | (a, _) :: _ => a = true end.
Lemma first_and_step p c : first_and p -> first_and (prog_step p c).
Proof.
  intros F. destruct p as [|[a cs] p]; destruct c; simpl; auto; destruct p; auto.
Qed.

Lemma selected_spec l p n v : corr l p -> prog_ok p -> rec_ok v -> 1 <= n ->
  selected l n v = prog_keeps p n v.
Proof.
  unfold selected, prog_keeps. generalize true as acc. intros acc C. revert acc.
  induction C as [|c [a cs] l p [A S] C IH]; intros acc G Hv Hn; auto.
  inversion G as [|? ? G1 G2]; subst. cbn [sel_loop fold_left fst snd] in *. rewrite A.
  rewrite (clause_discard_spec c cs n v) by auto. rewrite negb_involutive.
  destruct acc, a; cbn [negb andb orb]; apply IH; auto.
Qed.

(* ---- the stop limit ---- *)
Definition vis_int (l : list oper) : Prop :=
  Forall (fun o => o_kind o = KVis -> exists a b, o_lo o = inject_Z a /\ o_hi o = inject_Z b) l.

Lemma qtrunc_half z : 0 <= z -> qtrunc (inject_Z z + (1 # 2)) = z.
Proof.
  intros H. unfold qtrunc, Qplus, inject_Z. cbn [Qnum Qden].
  replace (z * 2 + 1 * 1) with (2 * z + 1) by ring. change (Z.pos (1 * 2)) with 2.
  rewrite Z.quot_div_nonneg by lia. replace (2 * z + 1) with (1 + z * 2) by ring. rewrite Z.div_add by lia.
  reflexivity.
Qed.

Lemma inr_Z a n b : inr (inject_Z a) (inject_Z n) (inject_Z b) = (a <=? n) && (n <=? b).
Proof.
  unfold inr. unfold Qle_bool, inject_Z. cbn [Qnum Qden]. rewrite !Z.mul_1_r. reflexivity.
Qed.

Definition vis_pos (l : list oper) : Prop :=
  Forall (fun o => o_kind o = KVis -> (1 <= o_lo o)%Q /\ (o_lo o <= o_hi o)%Q) l.

Lemma clause_maxvis_sound n v l : vis_int l -> vis_pos l -> forall temp d t,
  (temp < n -> d = true) -> clause_maxvis temp l = Some t -> t < n ->
  fold_left (gstep n v) (filter (isk KVis) l) d = true.
Proof.
  induction l as [|o l IH]; intros VI VP temp d t P H T.
  - simpl in *. injection H as <-. apply P. auto.
  - inversion VI as [|? ? V1 V2]; subst. inversion VP as [|? ? W1 W2]; subst. cbn [clause_maxvis filter] in *.
    destruct (kind_eqb (o_kind o) KVis) eqn:K; unfold isk at 1; rewrite K.
    + apply kind_eqb_eq in K. destruct (V1 K) as (a & b & Ea & Eb). destruct (W1 K) as [Wa Wb].
      rewrite K, Ea, Eb in *. unfold Qle in Wa, Wb. cbn [Qnum Qden inject_Z] in Wa, Wb.
      rewrite !qtrunc_half in H by lia.
      destruct (o_discard o) eqn:D; cbn [andb] in H.
      * destruct (Z.eqb_spec temp 0); [discriminate|].
        cbn [fold_left]. eapply IH; [auto | auto | | exact H | auto].
        unfold gstep, hit. rewrite K, Ea, Eb, inr_Z, D.
        destruct (Z.leb_spec temp b) as [L|L]; intros Q;
        destruct (Z.leb_spec a n), (Z.leb_spec n b); cbn [andb]; auto; apply P; lia.
      * cbn [fold_left]. eapply IH; [auto | auto | | exact H | auto].
        unfold gstep, hit. rewrite K, Ea, Eb, inr_Z, D. intros Q.
        destruct (Z.leb_spec a n), (Z.leb_spec n b); cbn [andb]; try (apply P; lia). exfalso; lia.
    + eapply IH; eauto. destruct (o_kind o); auto; discriminate.
Qed.

(* a limit found means the first visibility call was an inclusion *)
Lemma clause_maxvis_first l t : clause_maxvis 0 l = Some t -> 0 < t ->
  exists o r, filter (isk KVis) l = o :: r /\ o_discard o = false.
Proof.
  induction l as [|o l IH]; intros H T.
  - simpl in H. injection H as <-. lia.
  - cbn [clause_maxvis filter] in *. destruct (isk KVis o) eqn:K.
    + exists o, (filter (isk KVis) l). split; auto.
      unfold isk in K. apply kind_eqb_eq in K. rewrite K in H.
      destruct (o_discard o); auto. discriminate.
    + apply IH; auto. unfold isk in K. destruct (o_kind o); auto; discriminate.
Qed.

Lemma maxvis_mono l : forall acc, 0 < maxvis acc l -> acc <= maxvis acc l /\
  Forall (fun c => exists t, clause_maxvis 0 (c_opers c) = Some t /\ 0 < t <= maxvis acc l) l.
Proof.
  induction l as [|c l IH]; intros acc H; cbn [maxvis] in *; [split; [lia|auto]|].
  destruct (clause_maxvis 0 (c_opers c)) as [t|] eqn:E; [|lia].
  destruct (Z.leb_spec t 0); [lia|]. destruct (IH _ H) as [A B]. split; [lia|].
  constructor; auto. exists t. rewrite E. split; auto. lia.
Qed.

Definition calls_int (cs : list call) : Prop := Forall call_ok cs.

Lemma opers_vis c cs : stands c cs -> calls_int cs -> vis_int (c_opers c) /\ vis_pos (c_opers c).
Proof.
  intros S F. assert (W : forall o, In o (c_opers c) -> o_kind o = KVis -> exists p1 p2 inc, In (CRange KVis p1 p2 inc) cs /\ range_params KVis p1 p2 = Ok (o_lo o, o_hi o)).
  { intros o Ho K. assert (I : In o (filter (isk KVis) (c_opers c))) by (apply filter_In; split; auto; unfold isk; rewrite K; auto).
    rewrite (st_opers _ _ S) in I. unfold opers_of in I. apply in_flat_map in I as (x & Hx & Ix).
    destruct x as [k p1 p2 inc | | | | | |]; try contradiction.
    destruct (kind_eqb k KVis) eqn:K2; try contradiction. apply kind_eqb_eq in K2. subst k.
    destruct (range_params KVis p1 p2) as [[lo hi]|] eqn:R; try contradiction.
    destruct Ix as [<-|[]]. exists p1, p2, inc. auto. }
  unfold calls_int in F. rewrite Forall_forall in F.
  split; apply Forall_forall; intros o Ho K; destruct (W o Ho K) as (p1 & p2 & inc & I & R);
    cbn [range_params] in R; destruct (qlt p2 p1 || qlt p1 1) eqn:G; try discriminate;
    apply orb_false_iff in G as [G1 G2]; apply qlt_false in G1; apply qlt_false in G2;
    injection R as <- <-; auto.
  apply (F _ I).
Qed.

Definition prog_int (p : program) : Prop := Forall (fun g => calls_int (snd g)) p.

Lemma maxvis_sound l p n v : corr l p -> prog_ok p -> prog_int p -> first_and p -> l <> [] ->
  0 < maxvis 0 l -> maxvis 0 l < n -> rec_ok v -> selected l n v = false.
Proof.
  intros C G PI FA NE M N Hv. destruct (maxvis_mono l 0 M) as [_ F].
  assert (D : Forall (fun c => clause_discard c n v = true) l).
  { remember (maxvis 0 l) as mx eqn:Emx. clear Emx. clear FA NE.
    induction C as [|c [a cs] l p [A S] C IH]; auto.
    inversion G as [|? ? G1 G2]; inversion F as [|? ? F1 F2]; inversion PI as [|? ? P1 P2]; subst. constructor; auto.
    cbn [snd] in *. destruct F1 as (t & E & T1 & T2). unfold clause_discard.
    destruct (opers_vis c cs S P1) as [VI VP].
    rewrite groups_all.
    2:{ apply (st_sorted _ _ S). }
    2:{ destruct G1 as [G1|G1]; [left|right]; eapply has_opers; eauto. }
    apply orb_true_iff. right. cbn [existsb all_kinds]. apply orb_true_iff. left.
    destruct (clause_maxvis_first _ _ E T1) as (o & r & E1 & E2).
    unfold gdisc. rewrite E1. rewrite E2. rewrite <- E1.
    apply (clause_maxvis_sound n v (c_opers c) VI VP 0 true t); auto. lia. }
  destruct C as [|c [a cs] l p [A S] C]; [congruence|]. simpl in FA. subst a. cbn [fst] in A.
  inversion D as [|? ? D1 D2]; subst. unfold selected. cbn [sel_loop]. rewrite A, D1. cbn [negb andb orb].
  clear -D2. induction D2 as [|c l D1 D2 IH]; auto. cbn [sel_loop]. rewrite D1. cbn [negb].
  destruct (_ || _); auto.
Qed.
