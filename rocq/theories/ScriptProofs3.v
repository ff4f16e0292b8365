(* uv_selector: from entries to the records read. *)
From Coq Require Import QArith Ascii String.
From Verif Require Import Base BaselineModel BaselineProofs SelModel SelSpec SelProofs SelProofs2 SelProofs3 SelProps
  ScriptModel ScriptSpec ScriptProofs.
Open Scope Z_scope.
Ltac Zify.zify_post_hook ::= idtac.

Definition pol_calls (ps : option (list Z)) : list call :=
  match ps with None => [] | Some l => map (fun c => CRange KPol (inject_Z c) 0 true) l end.
Definition ant_of (e : entry) : call :=
  match e_bl e with None => CAuto (e_inc e) | Some bl => let '(i, j) := bl2ij bl in CAnt i j (e_inc e) end.
Definition group_of (pol : option (list Z)) (e : entry) : list call := ant_of e :: pol_calls (entry_pols pol e).

Lemma str2pol_code p : str2pol p = match pol_code p with Some c => Ok c | None => Err end.
Proof.
  destruct p as [a b]. unfold str2pol, pol_code, ceqb. cbn [fst snd find].
  rewrite (Ascii.eqb_sym a "x"), (Ascii.eqb_sym a "y"), (Ascii.eqb_sym b "x"), (Ascii.eqb_sym b "y").
  destruct (Ascii.eqb_spec "x" a); [subst|destruct (Ascii.eqb_spec "y" a); [subst|]];
    (destruct (Ascii.eqb_spec "x" b); [subst|destruct (Ascii.eqb_spec "y" b); [subst|]]); reflexivity.
Qed.
Lemma entry_calls_ok first pol e : entry_ok e ->
  entry_calls first pol e = Ok ((if first then [] else [if e_inc e then COr else CAnd]) ++ group_of pol e).
Proof.
  intros [_ P]. unfold entry_calls, group_of, entry_pols. destruct (e_pol e) as [p|].
  - specialize (P p eq_refl). rewrite str2pol_code. destruct (pol_code p); [|congruence]. cbn [bind].
    unfold ant_of. destruct first, (e_bl e); reflexivity.
  - cbn [bind]. unfold ant_of. destruct first, (e_bl e), pol; reflexivity.
Qed.

Definition link (e : entry) : call := if e_inc e then COr else CAnd.
Definition rest_calls (pol : option (list Z)) (l : list entry) : list call := flat_map (fun e => link e :: group_of pol e) l.
Lemma entries_calls_rest pol l : Forall entry_ok l -> entries_calls false pol l = Ok (rest_calls pol l).
Proof.
  induction 1 as [|e l He F IH]; auto. cbn [entries_calls]. rewrite (entry_calls_ok false pol e He). cbn [bind].
  rewrite IH. cbn [bind]. reflexivity.
Qed.
Lemma entries_calls_first pol e l : Forall entry_ok (e :: l) ->
  entries_calls true pol (e :: l) = Ok (group_of pol e ++ rest_calls pol l).
Proof.
  intros F. inversion F; subst. cbn [entries_calls]. rewrite (entry_calls_ok true pol e) by auto. cbn [bind].
  rewrite entries_calls_rest by auto. reflexivity.
Qed.

Lemma to_last_app c p g : to_last c (p ++ [g]) = p ++ [(fst g, snd g ++ [c])].
Proof.
  destruct g as [a cs]. induction p as [|x p IH]; auto. cbn [app]. cbn [fst snd] in *. rewrite <- IH.
  destruct x as [xa xcs]. cbn [to_last]. destruct p; reflexivity.
Qed.
Lemma plain_fold cs : Forall (fun c => plain c = true) cs -> forall p a pre,
  fold_left prog_step cs (p ++ [(a, pre)]) = p ++ [(a, pre ++ cs)].
Proof.
  induction 1 as [|c cs H F IH]; intros p a pre; cbn [fold_left].
  - rewrite app_nil_r. auto.
  - assert (E : prog_step (p ++ [(a, pre)]) c = p ++ [(a, pre ++ [c])]).
    { assert (T := to_last_app c p (a, pre)). cbn [fst snd] in T. rewrite <- T. destruct c; try discriminate H; reflexivity. }
    rewrite E, IH, <- app_assoc. reflexivity.
Qed.
Lemma group_plain pol e : Forall (fun c => plain c = true) (group_of pol e).
Proof.
  unfold group_of. constructor.
  - unfold ant_of. destruct (e_bl e); [destruct (bl2ij z)|]; auto.
  - unfold pol_calls. destruct (entry_pols pol e) as [l|]; auto. induction l; constructor; auto.
Qed.
Definition prog_of (pol : option (list Z)) (e : entry) (l : list entry) : program :=
  (true, group_of pol e) :: map (fun e => (negb (e_inc e), group_of pol e)) l.

Lemma rest_fold pol l : forall p, p <> [] ->
  fold_left prog_step (rest_calls pol l) p = p ++ map (fun e => (negb (e_inc e), group_of pol e)) l.
Proof.
  induction l as [|e l IH]; intros p N; [rewrite app_nil_r; reflexivity|].
  cbn [rest_calls flat_map]. rewrite <- app_comm_cons. cbn [fold_left]. rewrite fold_left_app.
  assert (E : prog_step p (link e) = p ++ [(negb (e_inc e), [])]).
  { unfold link. destruct (e_inc e); destruct p; cbn [prog_step negb]; congruence. }
  rewrite E. rewrite plain_fold by apply group_plain. cbn [app].
  fold (rest_calls pol l). rewrite IH by (destruct p; discriminate). rewrite <- app_assoc. reflexivity.
Qed.
Lemma in_force_prog pol e l : in_force (group_of pol e ++ rest_calls pol l) = prog_of pol e l.
Proof.
  unfold in_force. rewrite fold_left_app. 
  assert (G := group_plain pol e). unfold group_of in *. inversion G as [|? ? G1 G2]; subst.
  cbn [fold_left]. assert (E : prog_step [] (ant_of e) = [] ++ [(true, [ant_of e])]).
  { unfold ant_of. destruct (e_bl e); [destruct (bl2ij z)|]; reflexivity. }
  rewrite E, plain_fold by auto. rewrite rest_fold by discriminate. reflexivity.
Qed.

(* ---- meaning of one group ---- *)
Lemma pol_verdict l n v :
  kind_verdicts KPol (map (fun c => CRange KPol (inject_Z c) 0 true) l) n v =
  map (fun c => (true, Qeq_bool (inject_Z c) (v_num v KPol))) l.
Proof. induction l as [|c l IH]; auto. cbn [map]. unfold kind_verdicts in *. cbn [flat_map]. rewrite IH. reflexivity. Qed.
Lemma verdict_includes (l : list bool) : l <> [] -> verdict (map (fun b => (true, b)) l) = existsb (fun b => b) l.
Proof.
  intros N. destruct l as [|b l]; [congruence|]. unfold verdict. cbn [map negb].
  assert (G : forall l d, fold_left (fun keep (x : bool * bool) => if snd x then fst x else keep) (map (fun b => (true, b)) l) d = d || existsb (fun b => b) l).
  { clear. induction l as [|b l IH]; intros d; cbn [map fold_left existsb]; [rewrite orb_false_r; auto|].
    rewrite IH. cbn [fst snd]. destruct b, d; reflexivity. }
  change ((true, b) :: map (fun b => (true, b)) l) with (map (fun b => (true, b)) (b :: l)). rewrite G. reflexivity.
Qed.

Lemma group_meaning pol e n v : entry_ok e -> rec_ok v -> pol <> Some [] ->
  group_keeps (group_of pol e) n v = entry_keeps pol e v.
Proof.
  intros [EB EP] RV NP. unfold group_keeps, entry_keeps. f_equal.
  - assert (PV : forall ps, ant_verdicts (pol_calls ps) v = []).
    { intros [l|]; auto. cbn [pol_calls]. induction l; auto. }
    assert (AV : ant_verdicts (group_of pol e) v = ant_verdicts [ant_of e] v).
    { unfold group_of, ant_verdicts. cbn [flat_map]. rewrite app_nil_r. fold (ant_verdicts (pol_calls (entry_pols pol e)) v).
      rewrite PV, app_nil_r. reflexivity. }
    rewrite AV. unfold ant_of, entry_covers. destruct (e_bl e) as [bl|].
    + destruct (EB bl eq_refl) as (i & j & Hi & Hj & ->).
      rewrite bl2ij_ij2bl by (unfold ant_ok; lia). unfold ant_verdicts. cbn [flat_map app].
      unfold verdict. cbn [fold_left fst snd].
      assert (C : covers_ant v (Z.min i j) (Z.max i j) = (ij2bl i j =? ij2bl (v_i v) (v_j v))).
      { destruct RV as ([R1 R2] & R3 & _). unfold covers_ant.
        destruct (Z.eqb_spec (Z.min i j) (-1)); [lia|]. destruct (Z.eqb_spec (Z.max i j) (-1)); [lia|]. cbn [andb].
        apply bool_iff. rewrite orb_true_iff, !andb_true_iff, !Z.eqb_eq. split.
        - intros K. assert (X : bl2ij (ij2bl i j) = bl2ij (ij2bl (v_i v) (v_j v))).
          { rewrite !bl2ij_ij2bl by (unfold ant_ok; lia). f_equal; lia. }
          destruct (Z.le_ge_cases i j).
          + rewrite (Z.min_l i j), (Z.max_r i j) in K by lia. destruct K as [[<- <-]|[E1 E2]]; auto.
            replace (v_i v) with (v_j v) in * by lia. f_equal; lia.
          + rewrite (Z.min_r i j), (Z.max_l i j) in K by lia. destruct K as [[<- <-]|[E1 E2]]; [apply ij2bl_sym|].
            replace (v_i v) with (v_j v) in * by lia. f_equal; lia.
        - intros E. assert (X := f_equal bl2ij E). rewrite !bl2ij_ij2bl in X by (unfold ant_ok; lia).
          injection X as X1 X2. lia. }
      rewrite C. destruct (ij2bl i j =? ij2bl (v_i v) (v_j v)), (e_inc e); reflexivity.
    + unfold ant_verdicts. cbn [flat_map app]. unfold verdict. cbn [fold_left fst snd]. destruct (v_i v =? v_j v), (e_inc e); reflexivity.
  - assert (KA : forall k cs, kind_verdicts k (ant_of e :: cs) n v = kind_verdicts k cs n v).
    { intros k cs. unfold kind_verdicts. cbn [flat_map]. unfold ant_of. destruct (e_bl e); [destruct (bl2ij z)|]; reflexivity. }
    assert (KO : forall k ps, k <> KPol -> kind_verdicts k (pol_calls ps) n v = []).
    { intros k ps N. destruct ps as [l|]; auto. cbn [pol_calls]. induction l as [|c l IH]; auto. cbn [map].
      unfold kind_verdicts in *. cbn [flat_map]. rewrite IH. destruct (kind_eqb KPol k) eqn:E; auto. apply kind_eqb_eq in E. congruence. }
    unfold group_of. cbn [forallb all_kinds]. rewrite !KA.
    repeat match goal with |- context [verdict (kind_verdicts ?k ?x n v)] => lazymatch k with KPol => fail | _ => rewrite (KO k) by discriminate end end. cbn [verdict andb]. rewrite andb_true_r.
    assert (NE : entry_pols pol e <> Some []).
    { unfold entry_pols. destruct (e_pol e) as [p|]; auto. specialize (EP p eq_refl). destruct (pol_code p); congruence. }
    unfold pol_allows. destruct (entry_pols pol e) as [l|]; auto. cbn [pol_calls]. rewrite pol_verdict.
    rewrite <- (map_map (fun c => Qeq_bool (inject_Z c) (v_num v KPol)) (fun b => (true, b))).
    rewrite verdict_includes.
    + clear. induction l as [|c l IH]; auto. cbn [map existsb]. rewrite IH. auto.
    + destruct l; [congruence|discriminate].
Qed.

Lemma prog_meaning pol e l n v : Forall entry_ok (e :: l) -> rec_ok v -> pol <> Some [] ->
  prog_keeps (prog_of pol e l) n v = entries_keep pol (e :: l) v.
Proof.
  intros F RV NP. inversion F as [|? ? He Fl]; subst. unfold prog_keeps, prog_of, entries_keep. cbn [fold_left fst snd andb].
  rewrite (group_meaning pol e n v He RV NP). generalize (entry_keeps pol e v) as acc.
  clear -Fl RV NP. induction Fl as [|e l He F IH]; intros acc; auto. cbn [map fold_left fst snd].
  rewrite (group_meaning pol e n v He RV NP). destruct (e_inc e); cbn [negb]; apply IH.
Qed.

(* ---- running the calls ---- *)
Definition easy (c : call) : Prop :=
  match c with CAnt a b _ => -1 <= a <= 2047 /\ -1 <= b <= 2047 | CAuto _ | CAnd | COr => True
             | CRange KPol _ _ _ => True | _ => False end.
Lemma easy_step c : easy c -> forall l, exists l', uvselect l c = Ok l'.
Proof.
  intros Hc. assert (K : plain c = true -> forall x, exists x', clause_call x c = Ok x').
  { intros P x. destruct c; try contradiction; try discriminate P; cbn [clause_call]; eauto.
    - destruct k; try contradiction. cbn. eauto.
    - destruct Hc as [Ha Hb]. destruct (_ || _) eqn:G; eauto. exfalso.
      rewrite !orb_true_iff, !Z.ltb_lt in G. unfold MAXANT in G. lia. }
  assert (O : plain c = true -> forall l, exists l', on_last (fun x => clause_call x c) l = Ok l').
  { intros P. specialize (K P). induction l as [|x l IH].
    - cbn [on_last]. destruct (K (empty_clause true)) as [y E]. rewrite E. cbn [bind]. eauto.
    - destruct l as [|x2 l].
      + cbn [on_last]. destruct (K x) as [y E]. rewrite E. cbn [bind]. eauto.
      + change (on_last (fun x => clause_call x c) (x :: x2 :: l)) with
          (bind (on_last (fun x => clause_call x c) (x2 :: l)) (fun r => Ok (x :: r))).
        destruct IH as [r E]. rewrite E. cbn [bind]. eauto. }
  intros l. destruct c; try contradiction; cbn [uvselect]; eauto.
Qed.
Lemma easy_run cs : Forall easy cs -> forall s, exists s', srun s (map SSel cs) = Ok s'.
Proof.
  induction 1 as [|c cs Hc F IH]; intros s; [simpl; eauto|].
  cbn [map srun]. assert (E : exists s', sstep s (SSel c) = Ok s').
  { cbn [sstep]. destruct (easy_step c Hc (s_sel s)) as [l E]. destruct c; try contradiction; cbn [uv_select]; rewrite E; cbn [bind]; eauto. }
  destruct E as [s' E]. rewrite E. cbn [bind]. apply IH.
Qed.
Lemma easy_facts cs : Forall easy cs -> Forall call_ok cs /\ no_vis cs /\ dec_in_force cs = (1, 0).
Proof.
  intros F. split; [|split].
  - eapply Forall_impl; [|exact F]. intros c Hc. destruct c; try contradiction; try exact I. destruct k; try contradiction; exact I.
  - eapply Forall_impl; [|exact F]. intros c Hc. destruct c; try contradiction; try exact I. destruct k; try contradiction; exact I.
  - unfold dec_in_force. generalize (1, 0) as d. induction F as [|c l Hc F IH]; intros d; auto. cbn [fold_left].
    destruct c; try contradiction; auto.
Qed.
Lemma calls_SSel cs : calls (map SSel cs) = cs.
Proof. induction cs as [|c cs IH]; auto. cbn. unfold calls in IH. rewrite IH. auto. Qed.

Lemma ant_easy e : entry_ok e -> easy (ant_of e).
Proof.
  intros [EB _]. unfold ant_of. destruct (e_bl e) as [bl|]; [|exact I]. destruct (EB bl eq_refl) as (i & j & Hi & Hj & ->).
  rewrite bl2ij_ij2bl by (unfold ant_ok; lia). simpl. lia.
Qed.
Lemma pol_easy ps : Forall easy (pol_calls ps).
Proof. destruct ps as [l|]; [|constructor]. cbn [pol_calls]. induction l; constructor; auto. exact I. Qed.
Lemma group_easy pol e : entry_ok e -> Forall easy (group_of pol e).
Proof. intros H. constructor; [apply ant_easy; auto | apply pol_easy]. Qed.
Lemma group_ok_of pol e : group_ok (group_of pol e).
Proof.
  left. unfold has, group_of. cbn [existsb]. rewrite orb_false_iff. split.
  - unfold ant_of. destruct (e_bl e); [destruct (bl2ij z)|]; auto.
  - destruct (entry_pols pol e) as [l|]; auto. cbn [pol_calls]. induction l; auto.
Qed.

Lemma kept_filter p recs f : (forall n v, In v recs -> prog_keeps p n v = f v) -> kept p recs = filter f recs.
Proof.
  unfold kept. generalize 1. induction recs as [|v r IH]; intros n H; auto. cbn [numbered filter fst snd].
  rewrite H by (left; auto). destruct (f v); cbn [map]; rewrite IH by (intros; apply H; right; auto); reflexivity.
Qed.

Theorem selector_reads recs l pol :
  Forall rec_ok recs -> Forall entry_ok l -> l <> [] -> pol <> Some [] ->
  exists cs s, uv_selector (Some l) pol = Ok cs /\ srun (uv_fresh recs) (map SSel cs) = Ok s /\
  forall k, nreads k (uv_rewind s) = firstn k (map Some (filter (entries_keep pol l) recs) ++ repeat None k).
Proof.
  intros FR FE NE NP. destruct l as [|e l]; [congruence|].
  exists (group_of pol e ++ rest_calls pol l).
  assert (EZ : Forall easy (group_of pol e ++ rest_calls pol l)).
  { inversion FE as [|? ? He Fl]; subst. apply Forall_app. split; [apply group_easy; auto|].
    clear -Fl. induction Fl as [|x l Hx F IH]; [constructor|]. cbn [rest_calls flat_map]. rewrite <- app_comm_cons.
    constructor; [unfold link; destruct (e_inc x); exact I|]. apply Forall_app. split; [apply group_easy; auto | exact IH]. }
  destruct (easy_run _ EZ (uv_fresh recs)) as [s R]. exists s.
  split; [apply entries_calls_first; auto|]. split; auto. intros k.
  destruct (easy_facts _ EZ) as (C1 & C2 & C3).
  rewrite (C16_selected_records recs (map SSel (group_of pol e ++ rest_calls pol l)) s);
    rewrite ?calls_SSel, ?in_force_prog, ?C3; auto.
  - f_equal. f_equal. f_equal. apply kept_filter. intros n v Hv. rewrite Forall_forall in FR.
    apply prog_meaning; auto.
  - unfold prog_of. constructor; [apply group_ok_of|]. clear. induction l; constructor; auto. apply group_ok_of.
Qed.

Theorem selector_pol_reads recs l :
  Forall rec_ok recs -> l <> [] ->
  exists cs s, uv_selector None (Some l) = Ok cs /\ srun (uv_fresh recs) (map SSel cs) = Ok s /\
  forall k, nreads k (uv_rewind s) = firstn k (map Some (filter (pol_allows (Some l)) recs) ++ repeat None k).
Proof.
  intros FR NE. set (cs := pol_calls (Some l)). exists cs.
  assert (EZ : Forall easy cs) by apply pol_easy.
  destruct (easy_run _ EZ (uv_fresh recs)) as [s R]. exists s. split; auto. split; auto. intros k.
  destruct (easy_facts _ EZ) as (C1 & C2 & C3).
  assert (P : in_force cs = [(true, cs)]).
  { unfold cs, in_force. cbn [pol_calls]. destruct l as [|c l]; [congruence|]. cbn [map fold_left].
    change (prog_step [] (CRange KPol (inject_Z c) 0 true)) with ([] ++ [(true, [CRange KPol (inject_Z c) 0 true])]).
    rewrite plain_fold; auto. clear. induction l; constructor; auto. }
  rewrite (C16_selected_records recs (map SSel cs) s); rewrite ?calls_SSel, ?P, ?C3; auto.
  - f_equal. f_equal. f_equal. apply kept_filter. intros n v Hv.
    unfold prog_keeps. cbn [fold_left fst snd andb]. unfold group_keeps.
    assert (AV : ant_verdicts cs v = []). { unfold cs. cbn [pol_calls]. clear. induction l; auto. }
    rewrite AV. cbn [verdict andb].
    assert (KO : forall k, k <> KPol -> kind_verdicts k cs n v = []).
    { intros k0 N. unfold cs. cbn [pol_calls]. clear -N. induction l as [|c l IH]; auto. cbn [map].
      unfold kind_verdicts in *. cbn [flat_map]. rewrite IH. destruct (kind_eqb KPol k0) eqn:E; auto. apply kind_eqb_eq in E. congruence. }
    cbn [forallb all_kinds]. repeat match goal with |- context [verdict (kind_verdicts ?k ?x n v)] => lazymatch k with KPol => fail | _ => rewrite (KO k) by discriminate end end. cbn [verdict andb]. rewrite andb_true_r.
    unfold cs, pol_allows. cbn [pol_calls]. rewrite pol_verdict.
    rewrite <- (map_map (fun c => Qeq_bool (inject_Z c) (v_num v KPol)) (fun b => (true, b))).
    rewrite verdict_includes by (destruct l; [congruence|discriminate]).
    clear. induction l as [|c l IH]; auto. cbn [map existsb]. rewrite IH. auto.
  - constructor; [|constructor]. left. unfold has, cs. cbn [pol_calls snd]. clear. induction l; auto.
Qed.
