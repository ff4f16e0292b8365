(* C13 (with decimation), C14, C15, C16: selecting and decimating records. *)
From Verif Require Import Base BaselineModel SelModel SelSpec SelProofs SelProofs2 SelProofs3.
From Coq Require Import QArith Qround Lqa.
Open Scope Z_scope.
Ltac Zify.zify_post_hook ::= idtac.

(* C14 and C16 together. After any session of select, read and rewind calls (h), a
   rewind and k calls of read give the records the selection in force keeps, thinned by
   the decimation in force, in order, then only end of file. *)
Theorem C14_decimation : forall recs h s,
  Forall rec_ok recs -> Forall call_ok (calls h) -> prog_ok (in_force (calls h)) ->
  in_force (calls h) <> [] \/ no_vis (calls h) ->
  srun (uv_fresh recs) h = Ok s ->
  forall k, nreads k (uv_rewind s) =
    firstn k (map Some (let '(n, p) := dec_in_force (calls h) in decimated n p (kept (in_force (calls h)) recs))
              ++ repeat None k).
Proof. exact session. Qed.
Print Assumptions C14_decimation.

Lemma map_snd_int l : forall k t, map snd (integrations k t l) = l.
Proof. induction l as [|v l IH]; intros k t; auto. cbn [integrations]. destruct (Qeq_bool _ _); cbn [map]; rewrite IH; auto. Qed.
Lemma decimated_1 p l : decimated 1 p l = l.
Proof.
  unfold decimated.
  replace (filter _ (with_integration l)) with (with_integration l).
  - unfold with_integration. destruct l; auto. apply map_snd_int.
  - induction (with_integration l) as [|x r IH]; auto. cbn [filter]. rewrite Z.mod_1_r. cbn [Z.eqb]. rewrite <- IH. auto.
Qed.

(* C16: without decimation, exactly the records the and/or program keeps *)
Theorem C16_selected_records : forall recs h s,
  Forall rec_ok recs -> Forall call_ok (calls h) -> prog_ok (in_force (calls h)) ->
  in_force (calls h) <> [] \/ no_vis (calls h) ->
  fst (dec_in_force (calls h)) = 1 ->
  srun (uv_fresh recs) h = Ok s ->
  forall k, nreads k (uv_rewind s) =
    firstn k (map Some (kept (in_force (calls h)) recs) ++ repeat None k).
Proof.
  intros recs h s A B C D E R k. rewrite (session recs h s A B C D R k).
  destruct (dec_in_force (calls h)) as [n p]. cbn [fst] in E. subst n. rewrite decimated_1. reflexivity.
Qed.
Print Assumptions C16_selected_records.

(* C13 with decimation and selection: reading and rewinding before a rewind changes nothing *)
Theorem C13_rewind_with_decimation : forall recs h h' s s',
  Forall rec_ok recs -> Forall call_ok (calls h) -> prog_ok (in_force (calls h)) ->
  in_force (calls h) <> [] \/ no_vis (calls h) ->
  Forall (fun o => o = SRead \/ o = SRewind) h' ->
  srun (uv_fresh recs) h = Ok s -> srun s h' = Ok s' ->
  forall k, nreads k (uv_rewind s') = nreads k (uv_rewind s).
Proof.
  intros recs h h' s s' A B C D F R R' k.
  assert (N : calls (h ++ h') = calls h).
  { unfold calls. rewrite flat_map_app. assert (Z : flat_map (fun o => match o with SSel c => [c] | _ => [] end) h' = []).
    { clear -F. induction F as [|o l [ -> | -> ] F IH]; auto. }
    rewrite Z, app_nil_r. auto. }
  assert (J : srun (uv_fresh recs) (h ++ h') = Ok s').
  { clear -R R'. revert R. generalize (uv_fresh recs) as s0. induction h as [|o h IH]; intros s0 R; cbn [srun app] in *.
    - injection R as <-. auto.
    - destruct (sstep s0 o); cbn [bind] in *; [|discriminate]. apply IH; auto. }
  rewrite (session recs h s A B C D R k).
  rewrite (session recs (h ++ h') s') by (rewrite ?N; auto). rewrite N. reflexivity.
Qed.
Print Assumptions C13_rewind_with_decimation.

(* C15: antenna and auto calls in any number and order select by the last call that
   covers the baseline; a baseline none covers is kept iff the first call excludes *)
Definition ant_call (c : call) : Prop :=
  match c with CAnt a b _ => -1 <= a <= 2047 /\ -1 <= b <= 2047 | CAuto _ => True | _ => False end.

Lemma ants_program cs : cs <> [] -> Forall ant_call cs ->
  in_force cs = [(true, cs)] /\ dec_in_force cs = (1, 0) /\ Forall call_ok cs /\ no_vis cs.
Proof.
  intros NE F. destruct cs as [|c cs]; [congruence|]. inversion F as [|? ? Fc F']; subst.
  assert (G : forall pre, fold_left prog_step cs [(true, pre)] = [(true, pre ++ cs)]).
  { clear -F'. induction F' as [|x l Fx F IH]; intros pre; cbn [fold_left].
    - rewrite app_nil_r; auto.
    - destruct x; try contradiction; cbn [prog_step to_last]; rewrite IH, <- app_assoc; reflexivity. }
  assert (W : Forall call_ok (c :: cs) /\ no_vis (c :: cs)).
  { split; eapply Forall_impl; try exact F; intros x Hx; destruct x; try contradiction; exact I. }
  split; [|split; [|exact W]].
  - unfold in_force. cbn [fold_left]. destruct c; try contradiction; cbn [prog_step to_last]; rewrite G; reflexivity.
  - unfold dec_in_force. cbn [fold_left].
    assert (D : forall d, fold_left (fun d c => match c with CDecimate n p => (n, p) | _ => d end) cs d = d).
    { clear -F'. induction F' as [|x l Fx F IH]; intros d; auto. cbn [fold_left]. destruct x; try contradiction; auto. }
    destruct c; try contradiction; auto.
Qed.

Lemma ants_run cs : Forall ant_call cs -> forall s, exists s', srun s (map SSel cs) = Ok s'.
Proof.
  assert (S : forall l c, ant_call c -> exists l', uvselect l c = Ok l').
  { assert (O : forall c, ant_call c -> forall l, exists l', on_last (fun x => clause_call x c) l = Ok l').
    { intros c Hc. assert (K : forall x, exists x', clause_call x c = Ok x').
      { intros x. destruct c; try contradiction; cbn [clause_call]; eauto.
        destruct Hc as [Ha Hb]. destruct (_ || _) eqn:G; eauto. exfalso.
        rewrite !orb_true_iff, !Z.ltb_lt in G. unfold MAXANT in G. lia. }
      induction l as [|x l IH].
      - cbn [on_last]. destruct (K (empty_clause true)) as [y E]. rewrite E. cbn [bind]. eauto.
      - destruct l as [|x2 l].
        + cbn [on_last]. destruct (K x) as [y E]. rewrite E. cbn [bind]. eauto.
        + change (on_last (fun x => clause_call x c) (x :: x2 :: l)) with
            (bind (on_last (fun x => clause_call x c) (x2 :: l)) (fun r => Ok (x :: r))).
          destruct IH as [r E]. rewrite E. cbn [bind]. eauto. }
    intros l c Hc. destruct c; try contradiction; apply O; auto. }
  induction 1 as [|c cs Hc F IH]; intros s; [simpl; eauto|].
  cbn [map srun]. assert (E : exists s', sstep s (SSel c) = Ok s').
  { cbn [sstep]. destruct (S (s_sel s) c Hc) as [l E]. destruct c; try contradiction; cbn [uv_select]; rewrite E; cbn [bind]; eauto. }
  destruct E as [s' E]. rewrite E. cbn [bind]. apply IH.
Qed.

Theorem C15_antenna_selection : forall recs cs,
  Forall rec_ok recs -> cs <> [] -> Forall ant_call cs ->
  exists s, srun (uv_fresh recs) (map SSel cs) = Ok s /\
  forall k, nreads k (uv_rewind s) =
    firstn k (map Some (filter (fun v => verdict (ant_verdicts cs v)) recs) ++ repeat None k).
Proof.
  intros recs cs F NE A. destruct (ants_run cs A (uv_fresh recs)) as [s R]. exists s. split; auto. intros k.
  assert (N : calls (map SSel cs) = cs).
  { clear. induction cs as [|c cs IH]; auto. cbn. unfold calls in IH. rewrite IH. auto. }
  destruct (ants_program cs NE A) as (P1 & P2 & P3 & P4).
  assert (NR : forall f : kind -> bool, has f cs = false).
  { intros f. clear -A. unfold has. induction A as [|c l Hc A IH]; auto. cbn [existsb]. rewrite IH. destruct c; auto; contradiction. }
  rewrite (C16_selected_records recs (map SSel cs) s); rewrite ?N, ?P1, ?P2; auto.
  - f_equal. f_equal. f_equal. unfold kept. generalize 1.
    assert (K : forall n v, prog_keeps [(true, cs)] n v = verdict (ant_verdicts cs v)).
    { intros n v. unfold prog_keeps. cbn [fold_left fst snd andb]. unfold group_keeps.
      assert (KV : forall k, kind_verdicts k cs n v = []).
      { intros k0. clear -A. induction A as [|c l Hc A IH]; auto. unfold kind_verdicts in *. cbn [flat_map]. rewrite IH.
        destruct c; auto; contradiction. }
      replace (forallb _ all_kinds) with true; [apply andb_true_r|].
      symmetry. apply forallb_forall. intros k0 _. rewrite KV. reflexivity. }
    clear -K. induction recs as [|v r IH]; intros n; auto. cbn [numbered filter fst snd]. rewrite K.
    destruct (verdict (ant_verdicts cs v)); cbn [map]; rewrite IH; reflexivity.
  - constructor; [|constructor]. left. apply NR.
Qed.
Print Assumptions C15_antenna_selection.

(* the common single call: select('antennae', a, b) *)
Theorem C15_one_baseline : forall recs a b,
  Forall rec_ok recs -> 0 <= a <= 2047 -> 0 <= b <= 2047 ->
  exists s, srun (uv_fresh recs) [SSel (CAnt a b true)] = Ok s /\
  forall k, nreads k (uv_rewind s) =
    firstn k (map Some (filter (fun v => ((v_i v =? a) && (v_j v =? b)) || ((v_i v =? b) && (v_j v =? a))) recs) ++ repeat None k).
Proof.
  intros recs a b F A B. destruct (C15_antenna_selection recs [CAnt a b true]) as (s & R & H); auto.
  - discriminate.
  - constructor; [|constructor]. simpl. lia.
  - exists s. split; auto. intros k. rewrite H. f_equal. f_equal. f_equal. apply filter_ext. intros v.
    unfold ant_verdicts, verdict, covers_ant. cbn.
    destruct (Z.eqb_spec a (-1)); [lia|]. destruct (Z.eqb_spec b (-1)); [lia|]. cbn [andb].
    match goal with |- context [if ?x then true else false] => destruct x end; reflexivity.
Qed.
Print Assumptions C15_one_baseline.

(* ---- a concrete session meeting the hypotheses ---- *)
Definition rv (i j : Z) (t : Q) : vis := Vis i j t (fun _ => 0%Q) (fun _ => []) (fun _ => false) [] [].
Lemma run_reads {A} (f : rdr -> A) recs h l :
  match srun (uv_fresh recs) h with Ok s => f s = l | Err => False end ->
  exists s, srun (uv_fresh recs) h = Ok s /\ f s = l.
Proof. destruct (srun (uv_fresh recs) h) as [s|]; [eauto | contradiction]. Qed.

Definition ex_recs : list vis :=
  [rv 0 0 1; rv 0 1 1; rv 1 1 1; rv 0 0 2; rv 0 1 2; rv 1 1 2; rv 0 0 3; rv 0 1 3; rv 1 1 3]%Q.
Definition ex_h : list sop :=
  [SSel (CRange KVis 1 2 true); SRead; SRewind; SSel CClear; SSel (CRange KTime 1 3 true); SSel (CRange KVis 5 5 false);
   SRead; SSel (CAuto false); SSel COr; SSel (CAnt 1 1 true); SSel (CDecimate 2 1)].
Example ex_rec_ok : Forall rec_ok ex_recs.
Proof. repeat constructor; simpl; try lia; unfold Qle; simpl; lia. Qed.
Example ex_call_ok : Forall call_ok (calls ex_h).
Proof. repeat constructor; simpl; try discriminate; try (exists 1, 2; split; reflexivity); exists 5, 5; split; reflexivity. Qed.
Example ex_prog_ok : prog_ok (in_force (calls ex_h)) /\ in_force (calls ex_h) <> [].
Proof. split; [|discriminate]. repeat constructor. Qed.
Example ex_runs : exists s, srun (uv_fresh ex_recs) ex_h = Ok s /\
  nreads 4 (uv_rewind s) = [Some (rv 1 1 2); None; None; None].
Proof. apply (run_reads (fun s => nreads 4 (uv_rewind s))). vm_compute. reflexivity. Qed.
(* (0,1) at time 2 is record 5: excluded by number, and not an auto-correlation *)

(* ---- findings ---- *)
(* A record written with i > j is looked up under another baseline: a record of (2,0)
   is not returned by select('antennae', 0, 2) but is by select('antennae', 1, 1). *)
Theorem C15_reversed_pair_refuted :
  (exists s, srun (uv_fresh [rv 2 0 1]) [SSel (CAnt 0 2 true)] = Ok s /\ nreads 1 s = [None]) /\
  (exists s, srun (uv_fresh [rv 2 0 1]) [SSel (CAnt 1 1 true)] = Ok s /\ nreads 1 s = [Some (rv 2 0 1)]).
Proof. split; apply (run_reads (nreads 1)); vm_compute; reflexivity. Qed.

(* dazim selects nothing away when ra (or any kind numbered 5-19) is also selected on *)
Theorem C16_dazim_ignored_refuted : exists v,
  prog_keeps (in_force [CRange KDazim 1 2 true; CRange KRa 0 1 true]) 1 v = false /\
  exists s, srun (uv_fresh [v]) [SSel (CRange KDazim 1 2 true); SSel (CRange KRa 0 1 true)] = Ok s /\
  nreads 1 s = [Some v].
Proof.
  exists (Vis 0 1 1 (fun _ => 0%Q) (fun _ => [5%Q]) (fun _ => false) [] []).
  split; [vm_compute; reflexivity|]. apply (run_reads (nreads 1)). vm_compute; reflexivity.
Qed.

(* 'clear' leaves the limit of an earlier 'visibility' selection behind: of five records
   only three are read after select('visibility',1,2); read; select('clear'); rewind *)
Theorem C16_clear_keeps_limit_refuted :
  in_force [CRange KVis 1 2 true; CClear] = [] /\ exists s,
  srun (uv_fresh (repeat (rv 0 1 1) 5)) [SSel (CRange KVis 1 2 true); SRead; SSel CClear; SRewind] = Ok s /\
  nreads 5 s = [Some (rv 0 1 1); Some (rv 0 1 1); Some (rv 0 1 1); None; None].
Proof. split; [reflexivity|]. apply (run_reads (nreads 5)). vm_compute; reflexivity. Qed.

(* a fractional bound in an exclusion makes reading stop before a record it keeps:
   records 1, 2 and 8 are selected, only 1 and 2 are returned *)
Theorem C16_fractional_visibility_refuted :
  let cs := [CRange KVis 1 8 true; CRange KVis 3 (15 # 2) false] in
  let recs := repeat (rv 0 1 1) 8 in
  kept (in_force cs) recs = repeat (rv 0 1 1) 3 /\
  exists s, srun (uv_fresh recs) (map SSel cs) = Ok s /\
  nreads 3 s = [Some (rv 0 1 1); Some (rv 0 1 1); None].
Proof. split; [vm_compute; reflexivity|]. apply (run_reads (nreads 3)). vm_compute; reflexivity. Qed.
Print Assumptions C15_reversed_pair_refuted.
Print Assumptions C16_dazim_ignored_refuted.
Print Assumptions C16_clear_keeps_limit_refuted.
Print Assumptions C16_fractional_visibility_refuted.
