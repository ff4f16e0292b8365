From Verif Require Import Base.
From Coq Require Import String Ascii.
From Verif Require Import UvModel UvSpec AppModel AppSpec UvProofs UvProofs2 UvProofs3 UvProofs4 UvProofs5 UvProps.
Ltac Zify.zify_post_hook ::= idtac.
Open Scope Z_scope.

Lemma dataset_s_recs corrty ops : forall e pn, map fst (dataset_s corrty e pn ops) = recs ops.
Proof. induction ops as [|[[n t bs|x]|m] ops IH]; intros e pn; cbn [dataset_s recs map fst]; auto. now rewrite IH. Qed.

Lemma recs_app a b : recs (a ++ b) = recs a ++ recs b.
Proof. induction a as [|[[n t bs|x]|m] a IH]; cbn [recs app]; auto. now rewrite IH. Qed.

(* C54. A data set written over any number of openings: every opening succeeds, whatever
   corrmode is asked for when reopening, and reading gives all the records of all the
   openings in the order written, each with its preamble, data and flags; at each record
   every variable has the value it had when the record was written; then the data end. *)
Theorem C54_append_keeps_records feq8 feq4 add1000 addf1000 junk corrty f0 nsize ops :
  host_ok feq8 feq4 add1000 corrty ->
  valid_s feq8 feq4 add1000 addf1000 corrty nsize None [] [] ops -> few_variables_s corrty ops ->
  let ds := dataset_s corrty [] 0 ops in
  exists w, srun feq8 feq4 add1000 addf1000 junk (uv_new corrty f0) ops = Ok w /\
    map fst ds = recs ops /\
    (recs ops <> [] ->
     exists out last, reads nsize (S (List.length (recs ops))) (uv_open w) = out ++ [(last, RdEof)] /\
      Forall2 (fun d o => seen feq8 feq4 d (uvgetvr (fst o)) (snd o) /\ unseen d (uvgetvr (fst o))) ds out).
Proof.
  intros [HC H1 H2 H3 H4 H5] V FEW ds.
  destruct (written_s feq8 feq4 add1000 addf1000 junk corrty HC H1 H2 H3 H4 H5 f0 ops nsize V FEW)
    as (w & T & E & _ & OPEN & TAIL & (ic & IC) & _). fold ds in OPEN.
  exists w. split; [exact E|].
  assert (DR : map fst ds = recs ops) by apply dataset_s_recs.
  split; [exact DR|]. intros NR.
  assert (LN : List.length (recs ops) = List.length ds) by (rewrite <- DR; apply map_length).
  rewrite LN.
  assert (Q : RS feq8 feq4 corrty nsize (wnames w) (wtys w) (uv_open w) none none T ds).
  { apply OPEN; cbn; auto.
    - rewrite map_map. reflexivity.
    - rewrite map_map. reflexivity.
    - intros i v Hv. rewrite nth_error_map in Hv. destruct (nth_error (w_vars w) i); inversion Hv; auto. }
  assert (FR : fresh_rel (rd_vars (uv_open w)) none).
  { intros i v Hv _. cbn in Hv. rewrite nth_error_map in Hv. destruct (nth_error (w_vars w) i); inversion Hv; auto. }
  destruct (pass feq8 feq4 corrty HC nsize _ _ ic IC ds _ _ _ _ Q) as (P1 & P2 & P3 & P4).
  specialize (P2 FR). set (rn := after nsize (List.length ds) (uv_open w)) in *.
  exists (reads nsize (List.length ds) (uv_open w)), (fst (uvread nsize rn)).
  split.
  - replace (S (List.length ds)) with (List.length ds + 1)%nat by lia. rewrite reads_app. fold rn.
    cbn [reads]. f_equal. f_equal. rewrite (surjective_pairing (uvread nsize rn)) at 1. now rewrite P3.
  - clear -P1 P2. induction P1; inversion P2; subst; constructor; auto.
Qed.

Lemma dataset_s_nth corrty n : user_name n -> forall ops1 e prevn x ops2,
  exists e', nth_error (dataset_s corrty e prevn (ops1 ++ Op (URec x) :: ops2)) (List.length (recs ops1)) = Some (x, e') /\
    option_map snd (look e' n) = match last_set_s ops1 n with Some y => Some y | None => option_map snd (look e n) end.
Proof.
  intros U. induction ops1 as [|o ops1 IH]; intros e prevn x ops2; cbn [app dataset_s recs last_set_s nth_error List.length].
  - eexists; split; [reflexivity|]. now rewrite look_env_rec.
  - destruct o as [[m t bs|y]|mode]; cbn [dataset_s recs nth_error List.length].
    + destruct (IH (env_put e m t bs) prevn x ops2) as (e' & A & B). exists e'; split; [exact A|].
      rewrite B. destruct (last_set_s ops1 n); auto. destruct bs; auto. cbn. destruct (String.eqb_spec m n); auto.
    + destruct (IH (env_rec corrty e prevn y) (r_n y) x ops2) as (e' & A & B). exists e'; split; [exact A|].
      rewrite B. destruct (last_set_s ops1 n); auto. now rewrite look_env_rec.
    + destruct (IH e 0 x ops2) as (e' & A & B). exists e'; split; [exact A|].
      rewrite B. destruct (last_set_s ops1 n); auto.
Qed.

(* C54. A variable set in one opening still has that value at the records of later
   openings, until it is set again. *)
Theorem C54_variables_across_openings feq8 feq4 add1000 addf1000 junk corrty f0 nsize ops1 x ops2 n :
  let ops := ops1 ++ Op (URec x) :: ops2 in
  host_ok feq8 feq4 add1000 corrty ->
  valid_s feq8 feq4 add1000 addf1000 corrty nsize None [] [] ops -> few_variables_s corrty ops ->
  user_name n ->
  exists w o, srun feq8 feq4 add1000 addf1000 junk (uv_new corrty f0) ops = Ok w /\
    nth_error (reads nsize (S (List.length (recs ops))) (uv_open w)) (List.length (recs ops1)) = Some o /\
    (exists y, snd o = RdRec y /\ same_rec feq8 feq4 x y) /\
    uvgetvr (fst o) n = last_set_s ops1 n.
Proof.
  intros ops H V FEW U.
  destruct (dataset_s_nth corrty n U ops1 [] 0 x ops2) as (e' & D1 & D2). fold ops in D1.
  destruct (C54_append_keeps_records feq8 feq4 add1000 addf1000 junk corrty f0 nsize ops H V FEW)
    as (w & E & DR & X). destruct X as (out & last & R & F).
  { unfold ops. rewrite recs_app. cbn [recs]. intros X. apply app_eq_nil in X as [_ X]. discriminate X. }
  destruct (Forall2_nth _ _ _ _ _ F D1) as (o & O1 & (y & Y1 & Y2 & Y3) & O3).
  exists w, o. split; [exact E|]. rewrite R.
  split; [rewrite nth_error_app1; [exact O1|apply nth_error_Some; congruence]|].
  split; [exists y; auto|]. cbn [look option_map] in D2. cbn [snd] in Y3.
  destruct (look e' n) as [[t b]|] eqn:LE; cbn [option_map snd] in D2.
  - assert (G : uvgetvr (fst o) n = Some b) by (apply (Y3 n t b); [exact LE|apply U]).
    rewrite G, D2. destruct (last_set_s ops1 n); reflexivity.
  - rewrite (O3 n LE), D2. destruct (last_set_s ops1 n); reflexivity.
Qed.

(* C54. The kind of visibilities of a data set is settled when it is created: the
   corrmode given when reopening changes nothing. *)
Theorem C54_corrmode_of_reopening_ignored feq8 feq4 add1000 addf1000 junk corrty f0 nsize ops1 m1 m2 ops2 :
  host_ok feq8 feq4 add1000 corrty ->
  valid_s feq8 feq4 add1000 addf1000 corrty nsize None [] [] (ops1 ++ Reopen m1 :: ops2) ->
  few_variables_s corrty (ops1 ++ Reopen m1 :: ops2) ->
  srun feq8 feq4 add1000 addf1000 junk (uv_new corrty f0) (ops1 ++ Reopen m1 :: ops2) =
  srun feq8 feq4 add1000 addf1000 junk (uv_new corrty f0) (ops1 ++ Reopen m2 :: ops2).
Proof.
  intros [HC H1 H2 H3 H4 H5] V FEW.
  assert (A : forall ops w, srun feq8 feq4 add1000 addf1000 junk w (ops ++ Reopen m1 :: ops2) = 
     bind (srun feq8 feq4 add1000 addf1000 junk w ops) (fun w' => srun feq8 feq4 add1000 addf1000 junk w' (Reopen m1 :: ops2))).
  { induction ops as [|o ops IH]; intros w; cbn [app srun bind]; [reflexivity|].
    destruct (sstep feq8 feq4 add1000 addf1000 junk w o); cbn [bind]; [apply IH|reflexivity]. }
  assert (B : forall ops w, srun feq8 feq4 add1000 addf1000 junk w (ops ++ Reopen m2 :: ops2) = 
     bind (srun feq8 feq4 add1000 addf1000 junk w ops) (fun w' => srun feq8 feq4 add1000 addf1000 junk w' (Reopen m2 :: ops2))).
  { induction ops as [|o ops IH]; intros w; cbn [app srun bind]; [reflexivity|].
    destruct (sstep feq8 feq4 add1000 addf1000 junk w o); cbn [bind]; [apply IH|reflexivity]. }
  rewrite A, B. clear A B.
  assert (VP : valid_s feq8 feq4 add1000 addf1000 corrty nsize None [] [] ops1).
  { clear -V. revert V. generalize (@None urec) (@nil (string * (ty * list Z))) (@nil (string * list Z)).
    induction ops1 as [|[[n t bs|x]|m] ops IH]; intros p e s V; cbn [app valid_s] in *; [exact I| | |].
    - destruct V as (V1 & V2 & V3). split; [exact V1|]. split; [exact V2|]. eapply IH; exact V3.
    - destruct V as (V1 & V2 & V3). split; [exact V1|]. split; [exact V2|]. eapply IH; exact V3.
    - destruct V as (V1 & V3). split; [exact V1|]. eapply IH; exact V3. }
  destruct (run_spec_s feq8 feq4 add1000 addf1000 junk corrty HC H1 H2 H3 H4 H5
              ops1 _ _ _ _ _ nsize (SI_new feq8 feq4 corrty f0) VP)
    as (w & T & E & UO & W & X & F & (prev' & e' & set' & S & HN) & SG).
  rewrite E. cbn [bind srun sstep].
  assert (UA : uv_append m1 w = uv_append m2 w); [|now rewrite UA].
  unfold uv_append. destruct (negb (preamble_ok (map reopened (w_vars w)))); [reflexivity|].
  pose proof (S_hasc _ _ _ _ _ _ _ _ S) as HH.
  assert (FN : exists i, find_name w_name "corr" (map reopened (w_vars w)) = Some i).
  { pose (w' := Wr (map reopened (w_vars w)) 0 (w_file w) false []).
    assert (N' : wnames w' = wnames w) by (unfold wnames, w'; cbn [w_vars]; rewrite map_map; reflexivity).
    change (map reopened (w_vars w)) with (w_vars w'). rewrite fnd_w, N'.
    clear -HH. unfold has in HH. destruct (fnd "corr" (wnames w)) as [i|]; [eauto|discriminate]. }
  destruct FN as [i FN]. unfold mkvar. rewrite FN. reflexivity.
Qed.

(* C54. A data set can be reopened exactly if it has the variable coord, as doubles, and time and
   baseline, where it has them, are numbers. *)
Theorem C54_can_reopen mode w : NoDup (map w_name (w_vars w)) ->
  (exists w', uv_append mode w = Ok w') <->
  (exists v, In v (w_vars w) /\ w_name v = "coord"%string /\ w_ty v = TDble) /\
  (forall v, In v (w_vars w) -> w_name v = "time"%string \/ w_name v = "baseline"%string -> w_ty v = TInt \/ w_ty v = TReal \/ w_ty v = TDble).
Proof.
  intros ND.
  assert (FI : forall n vs, find_name w_name n vs = None /\ (forall v, In v vs -> w_name v <> n) \/
                exists i v, find_name w_name n vs = Some i /\ nth_error vs i = Some v /\ w_name v = n).
  { clear. intros n. induction vs as [|v vs IH]; [left; split; [reflexivity|intros v []]|]. cbn [find_name].
    destruct (String.eqb_spec (w_name v) n) as [E|E].
    - right. exists 0%nat, v. auto.
    - destruct IH as [[H1 H2]|(i & u & H1 & H2 & H3)]; rewrite H1.
      + left. split; [reflexivity|]. intros u [<-|Hu]; auto.
      + right. exists (S i), u. auto. }
  set (vs := map reopened (w_vars w)).
  assert (W : forall n, wfind vs n = None /\ (forall v, In v (w_vars w) -> w_name v <> n) \/
              exists v, wfind vs n = Some (reopened v) /\ In v (w_vars w) /\ w_name v = n).
  { intros n. unfold wfind. destruct (FI n vs) as [[H1 H2]|(i & v & H1 & H2 & H3)]; rewrite H1.
    - left. split; [reflexivity|]. intros v Hv. apply (H2 (reopened v)). now apply in_map.
    - right. rewrite H2. pose proof (nth_error_In _ _ H2) as HI. apply in_map_iff in HI as (u & <- & Hu). exists u. auto. }
  assert (U : forall v u, In v (w_vars w) -> In u (w_vars w) -> w_name v = w_name u -> v = u).
  { clear -ND. intros v u Hv Hu E. revert ND Hv Hu. induction (w_vars w) as [|x l IH]; [intros _ []|].
    cbn [map]. intros ND Hv Hu. inversion ND as [|? ? N1 N2]; subst. destruct Hv as [<-|Hv], Hu as [<-|Hu]; auto.
    - exfalso. apply N1. rewrite E. now apply in_map.
    - exfalso. apply N1. rewrite <- E. now apply in_map. }
  assert (PN : forall n, pre_number vs n = true <-> forall v, In v (w_vars w) -> w_name v = n -> w_ty v = TInt \/ w_ty v = TReal \/ w_ty v = TDble).
  { intros n. unfold pre_number. destruct (W n) as [[-> H]|(v & -> & Hv & Hn)].
    - split; auto. intros _ v Hv E. now elim (H v Hv).
    - cbn [reopened w_ty]. split.
      + intros T u Hu En. rewrite (U u v) by congruence. destruct (w_ty v); auto; discriminate.
      + intros T. destruct (T v Hv Hn) as [-> | [-> | ->]]; reflexivity. }
  assert (CO : match wfind vs "coord" with Some v => match w_ty v with TDble => true | _ => false end | None => false end = true <->
               exists v, In v (w_vars w) /\ w_name v = "coord"%string /\ w_ty v = TDble).
  { destruct (W "coord"%string) as [[-> H]|(v & -> & Hv & Hn)].
    - split; [discriminate|]. intros (v & Hv & E & _). now elim (H v Hv).
    - cbn [reopened w_ty]. split.
      + intros T. exists v. split; [exact Hv|]. split; [exact Hn|]. destruct (w_ty v); auto; discriminate.
      + intros (u & Hu & En & T). rewrite (U v u) by congruence. rewrite T. reflexivity. }
  unfold uv_append. fold vs.
  assert (MK : exists p, mkvar vs "corr" mode = Ok p).
  { unfold mkvar. destruct (find_name w_name "corr" vs); [eauto|]. cbn. eauto. }
  destruct MK as [pr MK]. rewrite MK. cbn [bind].
  assert (PO : preamble_ok vs = true <-> (exists v, In v (w_vars w) /\ w_name v = "coord"%string /\ w_ty v = TDble) /\
    (forall v, In v (w_vars w) -> w_name v = "time"%string \/ w_name v = "baseline"%string -> w_ty v = TInt \/ w_ty v = TReal \/ w_ty v = TDble)).
  { unfold preamble_ok. rewrite !andb_true_iff, CO, !PN. split.
    - intros [[A B] C]. split; [exact A|]. intros v Hv [E|E]; eauto.
    - intros [A B]. split; [split|]; eauto. }
  rewrite <- PO. destruct (preamble_ok vs); cbn [negb]; split; eauto; [intros (x & H); discriminate|discriminate].
Qed.
Example C54_can_reopen_case : let v n t := WV n t 0 None false 0 in
  NoDup (map w_name [v "coord"%string TReal; v "time"%string TDble]) /\
  uv_append TReal (Wr [v "coord"%string TReal; v "time"%string TDble] 0 f_empty false []) = Err /\
  is_ok (uv_append TReal (Wr [v "coord"%string TDble; v "time"%string TInt] 0 f_empty false [])) = true.
Proof. split; [repeat constructor; cbn; intuition discriminate|]. split; reflexivity. Qed.

(* ---------- concrete cases ---------- *)
(* three openings; "lst" set in the first is still there in the second, the second
   asks for another corrmode, the third only sets a variable and adds a record *)
Definition ops_app : list sop :=
  [Op (UPut "lst" TDble (dbl 5)); Op (URec (rec1 10 20 30)); Op (URec (rec1 10 21 40)); Reopen TInt2;
   Op (URec (rec1 11 20 50)); Op (UPut "source" TByte [65; 66; 67]); Op (URec (rec1 11 21 60)); Reopen TReal;
   Op (UPut "lst" TDble (dbl 6)); Op (URec (rec1 11 21 70))].
Example C54_hyps : valid_s list_eqb list_eqb h_add h_addf TReal 64 None [] [] ops_app /\
  few_variables_s TReal ops_app /\ List.length (recs ops_app) = 5%nat /\ host_ok list_eqb list_eqb h_add TReal.
Proof.
  split; [|split; [|split; [reflexivity|apply h_ok; auto]]].
  - cbn [valid_s ops_app]. vstep.
  - unfold few_variables_s. vm_compute. lia.
Qed.
Example C54_hyps_variables : user_name "lst" /\ last_set_s (firstn 6 ops_app) "lst" = Some (dbl 5) /\
  nth_error ops_app 6 = Some (Op (URec (rec1 11 21 60))).
Proof.
  split; [|split; reflexivity]. unfold user_name, preamble_name.
  split; [intros [H|[H|H]]; discriminate|]. split; [discriminate|split; discriminate].
Qed.

(* A data set to which no record has been written, only variables, cannot be reopened
   for appending, whatever the corrmode. *)
Theorem C54_append_without_record_refuted :
  exists ops, valid_s list_eqb list_eqb h_add h_addf TReal 64 None [] [] ops /\ recs ops = [] /\
    forall mode, srun list_eqb list_eqb h_add h_addf [] (uv_new TReal f_empty) (ops ++ [Reopen mode]) = Err.
Proof.
  exists [Op (UPut "lst" TDble (dbl 5)); Op (UPut "source" TByte [65; 66; 67])].
  split; [cbn [valid_s]; vstep|]. split; [reflexivity|]. intros mode. vm_compute. reflexivity.
Qed.

Print Assumptions C54_append_keeps_records.
Print Assumptions C54_variables_across_openings. Print Assumptions C54_can_reopen.
Print Assumptions C54_corrmode_of_reopening_ignored.
Print Assumptions C54_append_without_record_refuted.
