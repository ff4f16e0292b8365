From Coq Require Import QArith Ascii String.
From Verif Require Import Base SelModel SelSpec ScriptModel ScriptSpec ScriptProps RfModel RfSpec RfProofs.
Ltac Zify.zify_post_hook ::= idtac.
Open Scope Z_scope.
Local Notation length := List.length.

(* read_files gathers, over all files in order, the records the strings ask for: the times and sidereal
   times are those of the integrations, and the rows under (i, j, pol) are the data and flags of the
   records of that baseline and polarisation, in order; the frequencies are the last file's. *)
Theorem C56_read_files (fs : str -> option file) names files texts items polstr pols dec phs :
  Forall2 (fun n f => fs n = Some f) names files -> names <> [] ->
  Forall (fun f => f_recs f <> [] /\ Forall rec_ok (f_recs f) /\ 0 <= f_nants f <= 2047) files ->
  Forall2 item_text texts items -> Forall (ants_below 2047) items -> pols_text polstr pols ->
  let recs := flat_map (fun f => wanted (meaning (f_nants f) items) pols dec phs (f_recs f)) files in
  Forall (fun v => exists s, pol_named v s) recs ->
  exists i d g, read_files fs (NList names) (Some (join ","%char texts)) polstr dec phs = Ok (i, d, g) /\
    i_times i = firsts v_time (integration_groups recs) /\
    i_lsts i = firsts (fun v => v_num v KLst) (integration_groups recs) /\
    (forall k, rows_of v_data k recs (match kget d k with Some r => r | None => [] end)) /\
    (forall k, rows_of v_flags k recs (match kget g k with Some r => r | None => [] end)) /\
    (forall k, kget d k <> None <-> exists v, In v recs /\ rec_key v k) /\
    (forall k, kget g k <> None <-> exists v, In v recs /\ rec_key v k) /\
    (forall l f, files = l ++ [f] -> i_sdf i = f_sdf f /\ i_inttime i = f_inttime f /\ length (i_freqs i) = f_nchan f /\
       forall n x, nth_error (i_freqs i) n = Some x -> (x == f_sfreq f + inject_Z (Z.of_nat n) * f_sdf f)%Q).
Proof.
  intros FF NE OK T B P recs PN. unfold read_files. cbn [iterated].
  rewrite (map_res_files fs names files FF). cbn [bind].
  rewrite (files_read files texts items polstr pols) by (auto using pols_text_means). fold recs.
  destruct (takes_inv recs PN) as (a & E & [I1 I2 I3 I4 I5 I6 I7]). rewrite E. cbn [bind].
  assert (X : exists l f, files = l ++ [f]).
  { destruct files as [|f l _] using rev_ind; [inversion FF; subst; congruence|]. exists l, f. reflexivity. }
  destruct X as (l & f & X). assert (LO : last_opt files = Some f) by (rewrite X; apply last_opt_snoc). rewrite LO.
  eexists _, _, _. split; [reflexivity|]. cbn [i_times i_lsts i_sdf i_inttime i_freqs].
  split; [exact I1|]. split; [exact I2|]. split; [exact I4|]. split; [exact I5|]. split; [exact I6|]. split; [exact I7|].
  intros l' f' H. rewrite X in H. apply app_inj_tail in H as [_ <-]. split; [reflexivity|]. split; [reflexivity|].
  unfold get_freqs. split; [rewrite map_length, seq_length; reflexivity|]. intros n x Hx.
  rewrite nth_error_map in Hx. destruct (nth_error (seq 0 (f_nchan f)) n) as [k|] eqn:S; [|discriminate]. injection Hx as <-.
  assert (L : (n < f_nchan f)%nat) by (rewrite <- (seq_length (f_nchan f) 0); apply nth_error_Some; congruence).
  apply (nth_error_nth _ _ 0%nat) in S. rewrite seq_nth in S by exact L. subst k. cbn [Nat.add]. ring.
Qed.

(* If each integration has exactly one record of a baseline and polarisation, the rows match the times. *)
Theorem C56_rows_match_times (fs : str -> option file) names files texts items polstr pols dec phs k :
  Forall2 (fun n f => fs n = Some f) names files -> names <> [] ->
  Forall (fun f => f_recs f <> [] /\ Forall rec_ok (f_recs f) /\ 0 <= f_nants f <= 2047) files ->
  Forall2 item_text texts items -> Forall (ants_below 2047) items -> pols_text polstr pols ->
  let recs := flat_map (fun f => wanted (meaning (f_nants f) items) pols dec phs (f_recs f)) files in
  Forall (fun v => exists s, pol_named v s) recs -> recs <> [] ->
  Forall (fun g => exists a v b, g = a ++ v :: b /\ rec_key v k /\ forall w, In w (a ++ b) -> ~ rec_key w k) (integration_groups recs) ->
  exists i d g rows flags, read_files fs (NList names) (Some (join ","%char texts)) polstr dec phs = Ok (i, d, g) /\
    kget d k = Some rows /\ kget g k = Some flags /\
    length rows = length (i_times i) /\ length flags = length (i_times i) /\ length (i_lsts i) = length (i_times i) /\
    (forall n x, nth_error rows n = Some x -> exists v, In v recs /\ rec_key v k /\ x = v_data v /\
       exists t, nth_error (i_times i) n = Some t /\ (t == v_time v)%Q) /\
    (forall n x, nth_error flags n = Some x -> exists v, In v recs /\ rec_key v k /\ x = v_flags v /\
       exists t, nth_error (i_times i) n = Some t /\ (t == v_time v)%Q).
Proof.
  intros FF NE OK T B P recs PN NR ONE.
  destruct (C56_read_files fs names files texts items polstr pols dec phs FF NE OK T B P PN)
    as (i & d & g & E & I1 & I2 & I4 & I5 & I6 & I7 & _).
  fold recs in I1, I2, I4, I5, I6, I7.
  assert (KEY : exists v, In v recs /\ rec_key v k).
  { pose proof (ig_concat recs) as C. destruct (integration_groups recs) as [|g0 gs]; [cbn in C; congruence|].
    inversion ONE as [|? ? (a & v & b & -> & K & _) _]; subst. exists v. split; [|exact K]. rewrite <- C. cbn [concat].
    apply in_or_app. left. apply in_or_app. right. left. reflexivity. }
  destruct (kget d k) as [rows|] eqn:KD; [|apply I6 in KEY; congruence].
  destruct (kget g k) as [flags|] eqn:KG; [|apply I7 in KEY; congruence].
  specialize (I4 k). rewrite KD in I4. specialize (I5 k). rewrite KG in I5.
  assert (GEN : forall (A : Type) (f : vis -> A) rows, rows_of f k recs rows ->
     length rows = length (i_times i) /\
     forall n x, nth_error rows n = Some x -> exists v, In v recs /\ rec_key v k /\ x = f v /\
       exists t, nth_error (i_times i) n = Some t /\ (t == v_time v)%Q).
  { intros A f rs R. rewrite I1. pose proof (ig_concat recs) as C. rewrite <- C in R. apply one_each in R; [|exact ONE].
    apply (aligned f k (integration_groups recs) rs (fun v => In v recs) R (ig_same recs)).
    intros g0 v G1 G2. rewrite <- C. apply in_concat. exists g0. auto. }
  exists i, d, g, rows, flags. split; [exact E|]. split; [exact KD|]. split; [exact KG|].
  destruct (GEN _ v_data rows I4) as [L1 H1]. destruct (GEN _ v_flags flags I5) as [L2 H2].
  split; [exact L1|]. split; [exact L2|]. split; [|split; [exact H1|exact H2]].
  rewrite I1, I2. clear. induction (integration_groups recs) as [|[|v g] gs IH]; auto. unfold firsts in *. cbn [flat_map app List.length]. congruence.
Qed.

(* no file, a missing file, a file without records, a record of unknown polarisation: an error *)
Theorem C56_errors (fs : str -> option file) names antstr polstr dec phs :
  (names = [] \/ (exists n, In n names /\ (fs n = None \/ exists f, fs n = Some f /\ f_recs f = []))) ->
  read_files fs (NList names) antstr polstr dec phs = Err.
Proof.
  intros H. unfold read_files. cbn [iterated]. destruct H as [-> |(n & I & [E|(f & E & R)])].
  - reflexivity.
  - rewrite (map_res_bad _ names n I); [reflexivity|]. rewrite E. reflexivity.
  - destruct (map_res _ names) as [l|] eqn:M; cbn [bind]; [|reflexivity].
    destruct (map_res_in _ _ _ _ M I) as (y & Y & IY). rewrite E in Y. injection Y as <-.
    rewrite (read_each_bad _ _ _ _ l f IY R). reflexivity.
Qed.

(* ---- concrete cases ---- *)
Definition rfv (i j p : Z) (t : Q) (x : Z) : vis :=
  Vis i j t (fun k => match k with KPol => inject_Z p | KLst => (t / 10)%Q | _ => 0%Q end) (fun _ => []) (fun _ => false) [(x, x)] [x =? 0].
Definition exf (l : list vis) : file := File l 4 (1 # 1000) (1 # 10) 2 10.
Definition exfs (l : list (string * list vis)) (n : str) : option file :=
  option_map (fun x => exf (snd x)) (find (fun x => if list_eq_dec ascii_dec (lit (fst x)) n then true else false) l).
Definition ex_a := [rfv 0 0 (-5) 1 9; rfv 0 1 (-5) 1 10; rfv 0 2 (-5) 1 11; rfv 0 1 (-6) 1 90; rfv 0 0 (-5) 2 9; rfv 0 1 (-5) 2 20; rfv 0 2 (-5) 2 21]%Q.
Definition ex_b := [rfv 0 1 (-5) 3 30; rfv 0 2 (-5) 3 0]%Q.
Example C56_example :
  let fs := exfs [("a.uv", ex_a); ("b.uv", ex_b)]%string in
  match read_files fs (NList [lit "a.uv"; lit "b.uv"]) (Some (lit "cross")) (Some (lit "xx")) 1 0 with
  | Ok (i, d, g) => i_times i = [1; 2; 3]%Q /\
      d = [((0, 1, lit "xx"), [[(10, 10)]; [(20, 20)]; [(30, 30)]]); ((0, 2, lit "xx"), [[(11, 11)]; [(21, 21)]; [(0, 0)]])] /\
      g = [((0, 1, lit "xx"), [[false]; [false]; [false]]); ((0, 2, lit "xx"), [[false]; [false]; [true]])]
  | Err => False
  end.
Proof. vm_compute. split; [reflexivity|]. split; reflexivity. Qed.
Lemma ex_named i j p t x : In p [-5; -6] -> exists s, pol_named (rfv i j p t x) s.
Proof.
  intros [<-|[<-|[]]]; [exists (lit "xx"), (-5), "xx"%string|exists (lit "yy"), (-6), "yy"%string];
    (split; [unfold pol_names; cbn [In]; tauto|split; reflexivity]).
Qed.
Example C56_hypotheses :
  let files := [exf ex_a; exf ex_b] in
  Forall (fun f => f_recs f <> [] /\ Forall rec_ok (f_recs f) /\ 0 <= f_nants f <= 2047) files /\
  Forall2 item_text [lit "cross"] [ICross] /\ Forall (ants_below 2047) [ICross] /\ pols_text (Some (lit "xx")) (Some [-5]) /\
  let recs := flat_map (fun f => wanted (meaning (f_nants f) [ICross]) (Some [-5]) 1 0 (f_recs f)) files in
  Forall (fun v => exists s, pol_named v s) recs /\ length recs = 6%nat /\
  Forall (fun g => exists a v b, g = a ++ v :: b /\ rec_key v (0, 2, lit "xx") /\ forall w, In w (a ++ b) -> ~ rec_key w (0, 2, lit "xx"))
    (integration_groups recs).
Proof.
  assert (R : forall l, Forall (fun v => 0 <= v_i v <= v_j v /\ v_j v <= 2046 /\ Qle_bool (1 # 2) (v_time v) = true) l -> Forall rec_ok l).
  { intros l H. eapply Forall_impl; [|exact H]. intros v (A & B & C). split; [exact A|]. split; [exact B|]. apply Qle_bool_iff. exact C. }
  cbv zeta. split; [|split; [|split; [|split]]].
  - constructor; [|constructor; [|constructor]]; (split; [discriminate|split; [apply R|cbn; lia]]);
      unfold ex_a, ex_b; cbn [f_recs exf]; repeat (constructor; [cbn; repeat split; lia || reflexivity|]); constructor.
  - constructor; [constructor|constructor].
  - constructor; [exact I|constructor].
  - right. exists [lit "xx"], [-5]. split; [discriminate|]. split; [reflexivity|]. split; [reflexivity|].
    constructor; [|constructor]. exists "xx"%string. split; [unfold pol_names; cbn [In]; tauto|reflexivity].
  - set (recs := flat_map _ _).
    assert (E : recs = [rfv 0 1 (-5) 1 10; rfv 0 2 (-5) 1 11; rfv 0 1 (-5) 2 20; rfv 0 2 (-5) 2 21; rfv 0 1 (-5) 3 30; rfv 0 2 (-5) 3 0]%Q) by reflexivity.
    rewrite E. split; [repeat (constructor; [apply ex_named; cbn; tauto|]); constructor|]. split; [reflexivity|].
    assert (N : forall t x, ~ rec_key (rfv 0 1 (-5) t x) (0, 2, lit "xx")) by (intros t x (_ & H & _); discriminate).
    assert (Y : forall t x, rec_key (rfv 0 2 (-5) t x) (0, 2, lit "xx")).
    { intros t x. split; [reflexivity|]. split; [reflexivity|]. exists (-5), "xx"%string. split; [unfold pol_names; cbn [In]; tauto|split; reflexivity]. }
    change (integration_groups _) with [[rfv 0 1 (-5) 1 10; rfv 0 2 (-5) 1 11]; [rfv 0 1 (-5) 2 20; rfv 0 2 (-5) 2 21]; [rfv 0 1 (-5) 3 30; rfv 0 2 (-5) 3 0]]%Q.
    constructor; [|constructor; [|constructor; [|constructor]]].
    + exists [rfv 0 1 (-5) 1 10], (rfv 0 2 (-5) 1 11), []. split; [reflexivity|]. split; [apply Y|]. intros w [<-|[]]. apply N.
    + exists [rfv 0 1 (-5) 2 20], (rfv 0 2 (-5) 2 21), []. split; [reflexivity|]. split; [apply Y|]. intros w [<-|[]]. apply N.
    + exists [rfv 0 1 (-5) 3 30], (rfv 0 2 (-5) 3 0), []. split; [reflexivity|]. split; [apply Y|]. intros w [<-|[]]. apply N.
Qed.

(* ---- findings ---- *)
(* a baseline missing from one integration shifts its later rows: row 1 of (0,1) is of time 3, but times[1] is 2 *)
Theorem C56_missing_record_refuted :
  let recs := [rfv 0 1 (-5) 1 10; rfv 0 2 (-5) 1 11; rfv 0 2 (-5) 2 21; rfv 0 1 (-5) 3 30; rfv 0 2 (-5) 3 31]%Q in
  match read_files (exfs [("a.uv", recs)]%string) (NList [lit "a.uv"]) (Some (lit "cross")) (Some (lit "xx")) 1 0 with
  | Ok (i, d, g) => i_times i = [1; 2; 3]%Q /\ kget d (0, 1, lit "xx") = Some [[(10, 10)]; [(30, 30)]]
  | Err => False
  end.
Proof. vm_compute. split; reflexivity. Qed.
(* two files of the same times, as when each polarisation is in a file of its own: the times are listed
   twice, and no key has as many rows as there are times *)
Theorem C56_files_of_same_times_refuted :
  let x := [rfv 0 1 (-5) 1 10; rfv 0 1 (-5) 2 20]%Q in
  let y := [rfv 0 1 (-6) 1 11; rfv 0 1 (-6) 2 21]%Q in
  match read_files (exfs [("x.uv", x); ("y.uv", y)]%string) (NList [lit "x.uv"; lit "y.uv"]) (Some (lit "cross")) (Some (lit "xx,yy")) 1 0 with
  | Ok (i, d, g) => i_times i = [1; 2; 1; 2]%Q /\
      kget d (0, 1, lit "xx") = Some [[(10, 10)]; [(20, 20)]] /\ kget d (0, 1, lit "yy") = Some [[(11, 11)]; [(21, 21)]]
  | Err => False
  end.
Proof. vm_compute. split; [reflexivity|]. split; reflexivity. Qed.
(* one file name instead of a list is taken letter by letter: the test type(filenames) == 'str' is never
   true, so the file is not found although it is there *)
Theorem C56_single_name_refuted fs s antstr polstr dec phs :
  read_files fs (NStr s) antstr polstr dec phs = read_files fs (NList (map (fun c => [c]) s)) antstr polstr dec phs /\
  ((forall c, In c s -> fs [c] = None) -> read_files fs (NStr s) antstr polstr dec phs = Err).
Proof.
  split; [reflexivity|]. intros H. change (read_files fs (NList (map (fun c => [c]) s)) antstr polstr dec phs = Err).
  apply C56_errors. destruct s as [|c s]; [left; reflexivity|]. right. exists [c]. split; [left; reflexivity|]. left. apply H. left. reflexivity.
Qed.

Print Assumptions C56_read_files.
Print Assumptions C56_rows_match_times.
Print Assumptions C56_errors.
Print Assumptions C56_missing_record_refuted.
Print Assumptions C56_files_of_same_times_refuted.
Print Assumptions C56_single_name_refuted.
