From Verif Require Import Base.
From Coq Require Import String Ascii.
From Verif Require Import UvModel UvSpec UvProofs UvProofs2 UvProofs3 UvProofs4 UvProofs5.
Ltac Zify.zify_post_hook ::= idtac.
Open Scope Z_scope.

Section Main.
Variable feq8 feq4 : list Z -> list Z -> bool.
Variable add1000 addf1000 : list Z -> list Z.
Variable junk : list Z.
Variable corrty : ty.
Variable f0 : file.          (* whatever the file held before *)

(* C11, C12. Every history of variable assignments and records, written and read
   back: the records come in order, each with its preamble, data and flags, and at each
   record every variable has the value it had when the record was written; variables
   set only later have none; then comes the end of the data. *)
Theorem C12_records_in_order nsize ops :
  host_ok feq8 feq4 add1000 corrty ->
  valid feq8 feq4 add1000 addf1000 corrty nsize None [] [] ops -> few_variables corrty ops ->
  let ds := dataset corrty [] 0 ops in
  ds <> [] ->
  exists w, urun feq8 feq4 add1000 addf1000 junk corrty (uv_new corrty f0) ops = Ok w /\
    exists out last, reads nsize (S (List.length ds)) (uv_open w) = out ++ [(last, RdEof)] /\
      Forall2 (fun d o => seen feq8 feq4 d (uvgetvr (fst o)) (snd o) /\ unseen d (uvgetvr (fst o))) ds out /\
      (ends_with_record ops -> forall k, Forall (fun o => snd o = RdEof) (reads nsize k last)).
Proof.
  intros [HC H1 H2 H3 H4 H5] V FEW ds NE.
  destruct (written feq8 feq4 add1000 addf1000 junk corrty HC H1 H2 H3 H4 H5 f0 ops nsize V FEW)
    as (w & T & E & OPEN & TAIL & CI & _). destruct (CI NE) as [ic IC]. fold ds in OPEN.
  exists w. split; [exact E|].
  assert (Q : RS feq8 feq4 corrty nsize (wnames w) (wtys w) (uv_open w) none none T ds).
  { apply OPEN; cbn; auto.
    - rewrite map_map. reflexivity.
    - rewrite map_map. reflexivity.
    - intros i v Hv. rewrite nth_error_map in Hv. destruct (nth_error (w_vars w) i); inversion Hv; auto. }
  assert (FR : fresh_rel (rd_vars (uv_open w)) none).
  { intros i v Hv _. cbn in Hv. rewrite nth_error_map in Hv. destruct (nth_error (w_vars w) i); inversion Hv; auto. }
  destruct (pass feq8 feq4 corrty HC nsize _ _ ic IC ds _ _ _ _ Q) as (P1 & P2 & P3 & P4).
  specialize (P2 FR). set (rn := after nsize (List.length ds) (uv_open w)) in *.
  exists (reads nsize (List.length ds) (uv_open w)), (fst (uvread nsize rn)).
  split; [|split].
  - replace (S (List.length ds)) with (List.length ds + 1)%nat by lia. rewrite reads_app. fold rn.
    cbn [reads]. f_equal. f_equal. rewrite (surjective_pairing (uvread nsize rn)) at 1. now rewrite P3.
  - clear -P1 P2. induction P1; inversion P2; subst; constructor; auto.
  - intros ER k. destruct P4 as (l' & p' & P4); [right; apply TAIL; exact ER|].
    pose proof (eofs feq8 feq4 corrty nsize _ _ ic l' p' IC (S k) _ P4) as X. cbn [reads] in X.
    inversion X; auto.
Qed.

(* C13. After any history of reads and rewinds, a rewind starts the data set again:
   the same records, with the same data, flags and variable values. *)
Theorem C13_rewind_restarts nsize ops h :
  host_ok feq8 feq4 add1000 corrty ->
  valid feq8 feq4 add1000 addf1000 corrty nsize None [] [] ops -> few_variables corrty ops ->
  let ds := dataset corrty [] 0 ops in
  ds <> [] ->
  exists w, urun feq8 feq4 add1000 addf1000 junk corrty (uv_new corrty f0) ops = Ok w /\
    exists out last, reads nsize (S (List.length ds)) (uvrewind (fold_left rstep h (uv_open w))) =
        out ++ [(last, RdEof)] /\
      Forall2 (fun d o => seen feq8 feq4 d (uvgetvr (fst o)) (snd o)) ds out.
Proof.
  intros [HC H1 H2 H3 H4 H5] V FEW ds NE.
  destruct (written feq8 feq4 add1000 addf1000 junk corrty HC H1 H2 H3 H4 H5 f0 ops nsize V FEW)
    as (w & T & E & OPEN & TAIL & CI & _). destruct (CI NE) as [ic IC]. fold ds in OPEN.
  exists w. split; [exact E|].
  destruct (hist_frame h (uv_open w)) as (F1 & F2 & F3 & F4 & F5).
  set (r := fold_left rstep h (uv_open w)) in *. cbn in F1, F2, F3, F4, F5. rewrite map_map in F1, F2.
  assert (Q : RS feq8 feq4 corrty nsize (wnames w) (wtys w) (uvrewind r) none none T ds).
  { apply OPEN; cbn; auto.
    - rewrite map_map. cbn. exact F1.
    - rewrite map_map. cbn. exact F2.
    - intros i v Hv. rewrite nth_error_map in Hv. destruct (nth_error (rd_vars r) i); inversion Hv; auto. }
  destruct (pass feq8 feq4 corrty HC nsize _ _ ic IC ds _ _ _ _ Q) as (P1 & P2 & P3 & P4).
  set (rn := after nsize (List.length ds) (uvrewind r)) in *.
  exists (reads nsize (List.length ds) (uvrewind r)), (fst (uvread nsize rn)).
  split; [|exact P1].
  replace (S (List.length ds)) with (List.length ds + 1)%nat by lia. rewrite reads_app. fold rn.
  cbn [reads]. f_equal. f_equal. rewrite (surjective_pairing (uvread nsize rn)) at 1. now rewrite P3.
Qed.
End Main.


Lemma look_env_rec corrty e prevn x n : user_name n -> look (env_rec corrty e prevn x) n = look e n.
Proof.
  intros (A & B & C & D). unfold preamble_name in A.
  assert (K : forall m y e0, m <> n -> look ((m, y) :: e0) n = look e0 n).
  { intros m y e0 H. cbn. destruct (String.eqb_spec m n); congruence. }
  unfold env_rec. rewrite !K by (intros <-; tauto).
  destruct corrty; try rewrite K by congruence; destruct (r_n x =? prevn); auto; rewrite K by congruence; auto.
Qed.

Lemma dataset_nth corrty n : user_name n -> forall ops1 e prevn x ops2,
  exists e', nth_error (dataset corrty e prevn (ops1 ++ URec x :: ops2)) (records ops1) = Some (x, e') /\
    look e' n = match last_set ops1 n with Some y => Some y | None => look e n end.
Proof.
  intros U. induction ops1 as [|o ops1 IH]; intros e prevn x ops2; cbn [app dataset records last_set nth_error].
  - eexists; split; [reflexivity|]. now apply look_env_rec.
  - destruct o as [m t bs|y]; cbn [dataset records nth_error].
    + destruct (IH (env_put e m t bs) prevn x ops2) as (e' & A & B). exists e'; split; [exact A|].
      rewrite B. destruct (last_set ops1 n); auto. destruct bs; auto. cbn. destruct (String.eqb_spec m n); auto.
    + destruct (IH (env_rec corrty e prevn y) (r_n y) x ops2) as (e' & A & B). exists e'; split; [exact A|].
      rewrite B. destruct (last_set ops1 n); auto. now apply look_env_rec.
Qed.

Lemma Forall2_nth {A B} (P : A -> B -> Prop) l m k a : Forall2 P l m -> nth_error l k = Some a ->
  exists b, nth_error m k = Some b /\ P a b.
Proof. intros F. revert k; induction F; intros [|k] H1; cbn in *; try discriminate; [inversion H1; subst; eauto|eauto]. Qed.

(* C11. At the k-th record, a variable has the last value the user assigned before
   that record was written, and none if the user had assigned none. *)
Theorem C11_variable_stream feq8 feq4 add1000 addf1000 junk corrty f0 nsize ops1 x ops2 n :
  let ops := ops1 ++ URec x :: ops2 in
  host_ok feq8 feq4 add1000 corrty ->
  valid feq8 feq4 add1000 addf1000 corrty nsize None [] [] ops -> few_variables corrty ops ->
  user_name n ->
  exists w o, urun feq8 feq4 add1000 addf1000 junk corrty (uv_new corrty f0) ops = Ok w /\
    nth_error (reads nsize (S (records ops)) (uv_open w)) (records ops1) = Some o /\
    (exists y, snd o = RdRec y /\ same_rec feq8 feq4 x y) /\
    uvgetvr (fst o) n = option_map snd (last_set ops1 n).
Proof.
  intros ops H V FEW U.
  destruct (dataset_nth corrty n U ops1 [] 0 x ops2) as (e' & D1 & D2). fold ops in D1.
  assert (LEN : forall ops e prevn, List.length (dataset corrty e prevn ops) = records ops).
  { induction ops0 as [|[m t bs|y] ops0 IH]; intros; cbn; auto. }
  destruct (C12_records_in_order feq8 feq4 add1000 addf1000 junk corrty f0 nsize ops H V FEW)
    as (w & E & out & last & R & F & _).
  { intros X. rewrite X in D1. destruct (records ops1); discriminate. }
  destruct (Forall2_nth _ _ _ _ _ F D1) as (o & O1 & (y & Y1 & Y2 & Y3) & O3).
  exists w, o. split; [exact E|]. rewrite LEN in R. rewrite R.
  split; [rewrite nth_error_app1; [exact O1|apply nth_error_Some; congruence]|].
  split; [exists y; auto|]. cbn [look] in D2.
  destruct (last_set ops1 n) as [[t b]|] eqn:LS; cbn.
  - apply (Y3 n t b); [exact D2|apply U].
  - apply O3. exact D2.
Qed.

(* ---------- a concrete host and data set ---------- *)
Definition h_add (a : list Z) : list Z := match a with b :: r => firstn 8 ((b + 100) mod 256 :: r ++ repeat 0 7) | [] => repeat 0 8 end.
Definition h_addf (a : list Z) : list Z := match a with b :: _ => [(b + 50) mod 256; 0; 0; 0] | [] => [0; 0; 0; 0] end.
Definition dbl (k : Z) : list Z := k :: repeat 0 7.
Definition flt (k : Z) : list Z := k :: repeat 0 3.
Definition rec1 (t bl k : Z) : urec :=
  Rec (dbl 1) (dbl 2) (dbl 3) (dbl t) (flt bl) 2 [] (flt k ++ flt (k + 1) ++ flt (k + 2) ++ flt (k + 3)) [true; false].
Definition rec1i (t bl k : Z) : urec :=
  Rec (dbl 1) (dbl 2) (dbl 3) (dbl t) (flt bl) 2 (flt 9) [k; 0; k; 1; k; 2; k; 3] [true; false].
Definition f_empty : file := Fl 0 (fun _ => 77).

Lemma h_ok c : c = TReal \/ c = TInt2 -> host_ok list_eqb list_eqb h_add c.
Proof.
  intros C. constructor; auto; try (intros a b; rewrite !list_eqb_eq; congruence);
    try (intros a b d; rewrite !list_eqb_eq; congruence).
  intros [|b r]; [reflexivity|]. unfold h_add. rewrite firstn_length_le; [reflexivity|].
  cbn [List.length]. rewrite app_length, repeat_length. lia.
Qed.

Definition ops_ex : list uop :=
  [UPut "lst" TDble (dbl 5); URec (rec1 10 20 30); UPut "lst" TDble (dbl 6); UPut "source" TByte [65; 66; 67];
   URec (rec1 10 21 40); URec (rec1 11 20 50); UPut "lst" TDble (dbl 7)].

Ltac vstep := repeat match goal with
  | |- _ /\ _ => split
  | |- good_rec _ _ _ => unfold good_rec
  | |- good_put _ _ _ => unfold good_put
  | |- pre_ok _ _ _ _ _ _ _ _ => unfold pre_ok
  end; try solve [cbn; (reflexivity || lia || discriminate)
    | vm_compute; discriminate | vm_compute; reflexivity
    | (intros; cbn in *; repeat match goal with H : _ \/ _ |- _ => destruct H end; subst; try discriminate; try contradiction;
       repeat match goal with H : Some _ = Some _ |- _ => inversion H; clear H end; subst; try discriminate; split; reflexivity || reflexivity)
    | intros; vm_compute; reflexivity
    | intros ? [ -> | [ -> | -> ] ] H; vm_compute in H; first [tauto | intuition discriminate | left; vm_compute; reflexivity
        | right; vm_compute; reflexivity | right; vm_compute; intuition congruence]
    | intros ? ? H; vm_compute in H; inversion H; reflexivity | intros H; vm_compute in H; intuition discriminate ].

Example C12_hyps : valid list_eqb list_eqb h_add h_addf TReal 64 None [] [] ops_ex /\
  few_variables TReal ops_ex /\ dataset TReal [] 0 ops_ex <> [] /\ host_ok list_eqb list_eqb h_add TReal.
Proof.
  split; [|split; [|split; [vm_compute; discriminate|apply h_ok; auto]]].
  - cbn [valid ops_ex]. vstep.
  - unfold few_variables. vm_compute. lia.
Qed.

Definition ops_exi : list uop :=
  [URec (rec1i 10 20 30); UPut "lst" TDble (dbl 6); URec (rec1i 10 21 40); URec (rec1i 11 20 50)].
Example C12_hyps_scaled : valid list_eqb list_eqb h_add h_addf TInt2 64 None [] [] ops_exi /\
  few_variables TInt2 ops_exi /\ dataset TInt2 [] 0 ops_exi <> [] /\ ends_with_record ops_exi /\
  host_ok list_eqb list_eqb h_add TInt2.
Proof.
  split; [|split; [|split; [vm_compute; discriminate|split; [|apply h_ok; auto]]]].
  - cbn [valid ops_exi]. vstep.
  - unfold few_variables. vm_compute. lia.
  - exists (firstn 3 ops_exi), (rec1i 11 20 50). reflexivity.
Qed.

(* a copy of a data set sets the preamble variables to the values the record carries *)
Definition ops_copy : list uop :=
  [UPut "time" TDble (dbl 10); UPut "baseline" TReal (flt 20); UPut "coord" TDble (dbl 1 ++ dbl 2 ++ dbl 3);
   URec (rec1 10 20 30); UPut "time" TDble (dbl 11); URec (rec1 11 20 31)].
Example C12_hyps_copy : valid list_eqb list_eqb h_add h_addf TReal 64 None [] [] ops_copy.
Proof. cbn [valid ops_copy]. vstep. Qed.

(* a record may also differ from the assigned preamble, as long as it differs from the record before *)
Definition ops_shift : list uop :=
  [URec (rec1 10 20 30); UPut "time" TDble (dbl 11); URec (rec1 12 20 31)].
Example C12_hyps_shift : valid list_eqb list_eqb h_add h_addf TReal 64 None [] [] ops_shift.
Proof. cbn [valid ops_shift]. vstep. Qed.

Example C11_hyps : user_name "lst" /\ user_name "source" /\
  last_set (firstn 4 ops_ex) "lst" = Some (TDble, dbl 6) /\ last_set (firstn 1 ops_ex) "source" = None.
Proof.
  unfold user_name, preamble_name. repeat split; try discriminate; intros [H|[H|H]]; discriminate.
Qed.

(* ---------- what the hypotheses exclude really fails ---------- *)

(* the answers to reads, and one variable after each *)
Definition answers (ops : list uop) (k : nat) : option (list rdres) :=
  match urun list_eqb list_eqb h_add h_addf [] TReal (uv_new TReal f_empty) ops with
  | Ok w => Some (map snd (reads 64 k (uv_open w)))
  | Err => None
  end.

(* With more than 128 variables the data set is written without complaint and cannot be read. *)
Definition many : list uop :=
  map (fun k => UPut (String (ascii_of_nat k) EmptyString) TInt [0; 0; 0; 1]) (seq 1 125) ++ [URec (rec1 10 20 30)].
Theorem C12_many_variables_refuted :
  valid list_eqb list_eqb h_add h_addf TReal 64 None [] [] many /\
  ~ few_variables TReal many /\ answers many 1 = Some [RdErr].
Proof.
  split; [|split].
  - assert (G : forall ks e set, (forall k, In k ks -> (1 <= k < 126)%nat) -> NoDup ks ->
       (forall k, In k ks -> look e (String (ascii_of_nat k) EmptyString) = None) ->
       (forall n, preamble_name n -> look e n = None /\ ~ In n (map fst set)) ->
       valid list_eqb list_eqb h_add h_addf TReal 64 None e set
         (map (fun k => UPut (String (ascii_of_nat k) EmptyString) TInt [0; 0; 0; 1]) ks ++ [URec (rec1 10 20 30)])).
    { induction ks as [|k ks IH]; intros e set KB ND LK PR.
      - cbn [map app valid]. split; [vstep|]. split; [|exact I].
        assert (P1 : ~ In "coord"%string (map fst set)) by (apply PR; unfold preamble_name; auto).
        assert (P2 : ~ In "time"%string (map fst set)) by (apply PR; unfold preamble_name; auto).
        assert (P3 : ~ In "baseline"%string (map fst set)) by (apply PR; unfold preamble_name; auto).
        unfold pre_ok. split; [|intros _; vstep; intros _; vm_compute; reflexivity].
        intros n Hn Hi. exfalso. apply (proj2 (PR n Hn)); exact Hi.
      - cbn [map app valid]. inversion ND as [|? ? N1 N2]; subst. split; [|split].
        + unfold good_put. vstep.
        + intros t' b H. rewrite LK in H by (left; auto). discriminate.
        + apply IH; auto.
          * intros j Hj. apply KB; right; auto.
          * intros j Hj. cbn [env_put look]. destruct (String.eqb_spec (String (ascii_of_nat k) "") (String (ascii_of_nat j) "")) as [X|X].
            -- exfalso. inversion X as [Y]. apply (f_equal nat_of_ascii) in Y.
               assert (k < 126)%nat by (apply KB; left; auto). assert (j < 126)%nat by (apply KB; right; auto).
               rewrite !nat_ascii_embedding in Y by lia. congruence.
            -- apply LK; right; auto.
          * intros n Hn. destruct (PR n Hn) as [Q1 Q2].
            assert (NE : String (ascii_of_nat k) "" <> n) by (destruct Hn as [ -> | [ -> | -> ] ]; discriminate).
            split.
            -- cbn [env_put look]. destruct (String.eqb_spec (String (ascii_of_nat k) "") n); congruence.
            -- intros [X|X]; auto. }
    apply G.
    + intros k Hk. apply in_seq in Hk. lia.
    + apply seq_NoDup.
    + reflexivity.
    + auto.
  - unfold few_variables. intros H. apply Nat.leb_le in H. vm_compute in H. discriminate.
  - vm_compute. reflexivity.
Qed.

(* The first record's time is not written when it happens to equal w + 1000: reading
   then fails. (uvio.c:2013-2019 initialises the comparison buffers from the wrong
   preamble elements.) *)
Theorem C12_initial_time_refuted :
  exists x, good_rec TReal 64 x /\ r_t x = h_add (r_w x) /\ answers [URec x] 1 = Some [RdErr].
Proof. exists (rec1 103 20 30). split; [vstep|split; vm_compute; reflexivity]. Qed.

(* Setting a preamble variable between two records that carry the same value makes the
   second record come back with the user's value. *)
Theorem C12_preamble_set_refuted :
  exists x t y, good_rec TReal 64 x /\
    answers [URec x; UPut "time" TDble t; URec x] 2 = Some [RdRec x; RdRec y] /\ r_t y = t /\ t <> r_t x.
Proof.
  exists (rec1 10 20 30), (dbl 99), (rec1 99 20 30).
  split; [vstep|]. split; [vm_compute; reflexivity|]. split; [reflexivity|discriminate].
Qed.

(* Reading on after the end of the data is an error rather than another end of data,
   when a variable was set and enlarged after the last record: the second scan of the
   tail uses the variable's final length. *)
Theorem C12_read_past_end_refuted :
  exists ops, valid list_eqb list_eqb h_add h_addf TReal 64 None [] [] ops /\ few_variables TReal ops /\
    answers ops 3 = Some [RdRec (rec1 10 20 30); RdEof; RdErr].
Proof.
  exists [UPut "a" TInt [0; 0; 0; 1]; URec (rec1 10 20 30); UPut "a" TInt [0; 0; 0; 2];
          UPut "a" TInt [0; 0; 0; 3; 0; 0; 0; 4; 0; 0; 0; 5; 0; 0; 0; 6; 0; 0; 0; 7]].
  split; [cbn [valid]; vstep|]. split; [unfold few_variables; vm_compute; lia|]. vm_compute. reflexivity.
Qed.

Print Assumptions C11_variable_stream.
Print Assumptions C12_records_in_order.
Print Assumptions C13_rewind_restarts.
Print Assumptions C12_many_variables_refuted.
