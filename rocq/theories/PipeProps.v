From Verif Require Import Base.
From Coq Require Import String.
From Verif Require Import UvModel UvSpec UvProofs UvProofs2 UvProofs3 UvProofs4 UvProofs5 UvProps
  PipeModel PipeSpec PipeProofs PipeProofs2 PipeProofs3 PipeProofs4.
Ltac Zify.zify_post_hook ::= idtac.
Open Scope Z_scope.
Local Notation length := List.length.

(* C18. A data set written by any history of calls is opened, read and rewound any number of
   times, and copied into a new data set by init_from_uv (with overrides ov and exclusions ex) and
   pipe with a function mf (given each record with its arrays filled up to nsize channels). Then the
   output, read back, has in order exactly the records mf returned. At each, a copied variable has the
   value it had at the source record; an overridden, excluded or new one has mf's last
   assignment, else its override, else no value; the preamble variables are the record's. *)
Theorem C18_pipe feq8 feq4 add1000 addf1000 junk sc oc f0 f0' nsize nsize' ops hs ks ov ex mf jc jf T NS :
  host_ok feq8 feq4 add1000 sc -> host_ok feq8 feq4 add1000 oc ->
  valid feq8 feq4 add1000 addf1000 sc nsize None [] [] ops -> few_variables sc ops ->
  let ds := dataset sc [] 0 ops in
  ds <> [] -> Forall (fun k => (k <= length ds)%nat) hs ->
  exists w, urun feq8 feq4 add1000 addf1000 junk sc (uv_new sc f0) ops = Ok w /\
  let r0 := fold_left rstep (sessions nsize hs) (uv_open w) in
  let rs := reads nsize (length ds) r0 in
  let f := fun k r x => mf k r (widen jc jf sc nsize k x) in
  let out := expected f (start ks ov ex) 0 ds rs in
  (* the function sees the source's records *)
  Forall2 (fun d o => exists x, snd o = RdRec x /\ same_rec feq8 feq4 (fst d) x) ds rs /\
  (same_members ks r0 ->
  (forall v, In v (rd_vars r0) -> v_name v <> "corr"%string -> v_ty v = T (v_name v)) ->
  T "tscale"%string = TReal -> T "nchan"%string = TInt ->
  copyable ks ov ex ds ->
  (forall n b, In n ks -> ~ In n ex -> getov ov n = Some b -> n <> "corr"%string -> ~ preamble_name n /\ good_put n (T n) b) ->
  (forall n, preamble_name n -> ~ In n ex) ->
  good_outs feq8 feq4 oc f T (tracked ks ov ex) nsize' None (fun n b => uvgetvr r0 n = Some b) 0 rs ->
  incl (map v_name (rd_vars r0) ++ builtins oc ++ put_names f 0 rs) NS -> (length NS <= 128)%nat ->
  exists w', clone feq8 feq4 add1000 addf1000 junk oc mf jc jf sc nsize r0 ks ov ex f0' = Ok w' /\
    (out <> [] -> exists res last, reads nsize' (S (length out)) (uv_open w') = res ++ [(last, RdEof)] /\
       Forall2 (fun q o => comes_out feq8 feq4 (tracked ks ov ex) (nchan_agrees out) q (uvgetvr (fst o)) (snd o)) out res)).
Proof.
  intros H1 H2 V FEW ds NE HK.
  destruct (pipe_main feq8 feq4 add1000 addf1000 junk sc oc f0 f0' nsize nsize' ops hs ks ov ex mf jc jf T NS H1 H2 V FEW NE HK)
    as (w & E & F & _ & M).
  exists w. split; [exact E|]. intros r0 rs f out. split; [|exact M].
  eapply Forall2_mp; [|exact F]. intros d o (x & X1 & X2 & _). eauto.
Qed.

(* the default function (keep everything), or one that drops some records *)
Definition echo_if (keep : nat -> bool) (k : nat) (r : reader) (x : urec) : list put * option urec :=
  ([], if keep k then Some x else None).
Fixpoint kept {A} (keep : nat -> bool) (k : nat) (l : list A) : list A :=
  match l with [] => [] | a :: r => if keep k then a :: kept keep (S k) r else kept keep (S k) r end.

Lemma same8_trans feq8 (S : forall a b, feq8 a b = true -> feq8 b a = true)
  (Tr : forall a b c, feq8 a b = true -> feq8 b c = true -> feq8 a c = true) a b c : same8 feq8 a b -> same8 feq8 b c -> same8 feq8 a c.
Proof. intros [->|[H|H]] [->|[K|K]]; unfold same8; eauto 6. Qed.

Lemma same_rec_trans feq8 feq4 add1000 oc a b c : host_ok feq8 feq4 add1000 oc -> same_rec feq8 feq4 a b -> same_rec feq8 feq4 b c -> same_rec feq8 feq4 a c.
Proof.
  intros [_ S8 S4 T8 T4 _] (A1 & A2 & A3 & A4 & A5 & A6 & A7 & A8 & A9) (B1 & B2 & B3 & B4 & B5 & B6 & B7 & B8 & B9).
  unfold same_rec. pose proof (same8_trans feq8 S8 T8) as K8. pose proof (same8_trans feq4 S4 T4) as K4.
  repeat (split; [first [eapply K8; eassumption|eapply K4; eassumption|congruence]|]). congruence.
Qed.

Lemma widen_id jc jf sc n k x : r_n x = n -> widen jc jf sc n k x = x.
Proof. intros <-. unfold widen. rewrite Z.sub_diag, Z.mul_0_r. cbn. rewrite !app_nil_r. now destruct x. Qed.

Lemma Forall2_in {A B} (P : A -> B -> Prop) l m : Forall2 P l m -> Forall2 (fun a b => P a b /\ In a l) l m.
Proof.
  intros F. assert (G : forall l' m', Forall2 P l' m' -> incl l' l -> Forall2 (fun a b => P a b /\ In a l) l' m').
  { intros l' m' F'. induction F'; intros I; constructor.
    - split; [auto|apply I; left; reflexivity].
    - apply IHF'. intros a Ha. apply I. right; exact Ha. }
  apply G; [exact F|apply incl_refl].
Qed.

Section Echo.
Variable feq8 feq4 : list Z -> list Z -> bool.
Variable jc : nat -> list Z.
Variable jf : nat -> list bool.
Variable keep : nat -> bool.
Variable nsize : Z.
Let f := fun k r x => echo_if keep k r (widen jc jf TReal nsize k x).
Definition echo_row (d : urec * env) (o : reader * rdres) : Prop :=
  exists x, snd o = RdRec x /\ same_rec feq8 feq4 (fst d) x /\ good_rec TReal nsize x /\ r_n x = nsize.

Lemma echo_good T trk ds rs : Forall2 echo_row ds rs -> forall prev past k, good_outs feq8 feq4 TReal f T trk nsize prev past k rs.
Proof.
  intros F. induction F as [|d [r o] ds rs (x & X1 & X2 & X3 & X4) F IH]; intros prev past k; cbn [good_outs]; auto.
  cbn [snd] in X1; subst o. unfold f at 1 2, echo_if. cbn [fst snd]. split; [constructor|].
  rewrite widen_id by exact X4. destruct (keep k); [|apply IH]. split; [exact X3|]. split; [left; reflexivity|apply IH].
Qed.

Lemma echo_puts ds rs : Forall2 echo_row ds rs -> forall k, put_names f k rs = [].
Proof.
  intros F. induction F as [|d [r o] ds rs (x & X1 & _) F IH]; intros k; cbn [put_names]; auto. cbn [snd] in X1; subst o. apply IH.
Qed.

Lemma echo_expected U ds rs : Forall2 echo_row ds rs -> forall k,
  Forall2 (fun d q => fst (fst q) = d /\ snd q = U /\ same_rec feq8 feq4 (fst d) (snd (fst q)) /\ r_n (snd (fst q)) = nsize)
    (kept keep k ds) (expected f U k ds rs).
Proof.
  intros F. induction F as [|d [r o] ds rs (x & X1 & X2 & X3 & X4) F IH]; intros k; cbn [kept expected]; [constructor|].
  cbn [snd] in X1; subst o. unfold f at 1 2 3 4, echo_if. cbn [fst snd fold_left]. rewrite widen_id by exact X4.
  destruct (keep k); [|apply IH]. constructor; [auto|apply IH].
Qed.
End Echo.

Lemma kept_in {A} keep (l : list A) : forall k d, In d (kept keep k l) -> In d l.
Proof.
  induction l as [|a l IH]; intros k d; cbn [kept]; auto. destruct (keep k); cbn; [intros [<-|H]|intros H]; eauto.
Qed.

Lemma Forall2_flip {A B} (P : A -> B -> Prop) l m : Forall2 P l m -> Forall2 (fun b a => P a b) m l.
Proof. intros F. induction F; constructor; auto. Qed.


Lemma dataset_corr ops : forall e pn d n, In d (dataset TReal e pn ops) -> In n ["corr"; "coord"; "time"; "baseline"]%string -> look (snd d) n <> None.
Proof.
  induction ops as [|[m t b|x] ops IH]; intros e pn d n Hd H; cbn [dataset] in *; [destruct Hd|eapply IH; eauto|].
  destruct Hd as [<-|Hd]; [|eapply IH; eauto]. apply look_of_in. cbn [snd env_rec map fst]. cbn in *. tauto.
Qed.

Lemma rfind_in r n v : rfind r n = Some v -> In v (rd_vars r) /\ v_name v = n.
Proof.
  unfold rfind. rewrite find_name_map. destruct (find_name _ n _) as [i|] eqn:F; [|discriminate]. intros Hi.
  apply find_some in F. rewrite nth_error_map, Hi in F. cbn in F. split; [eapply nth_error_In; exact Hi|congruence].
Qed.

(* C18, copying without change: a data set of float visibilities, with nsize channels in every
   record and every variable set before the first one, is copied record for record (less the dropped
   ones) with all its variables. *)
Theorem C18_clone feq8 feq4 add1000 addf1000 junk f0 f0' nsize ops hs ks keep jc jf :
  host_ok feq8 feq4 add1000 TReal ->
  valid feq8 feq4 add1000 addf1000 TReal nsize None [] [] ops -> few_variables TReal ops ->
  let ds := dataset TReal [] 0 ops in
  ds <> [] -> Forall (fun k => (k <= length ds)%nat) hs ->
  (forall d, In d ds -> r_n (fst d) = nsize /\ look (snd d) "nchan" = Some (TInt, be4 nsize)) ->
  (forall n d, In n (names TReal [] 0 ops) -> nth_error ds 0 = Some d -> look (snd d) n <> None) ->
  (forall n d t b, In d ds -> look (snd d) n = Some (t, b) -> n <> "corr"%string ->
     zlen b <= MAXVAR /\ (t = TInt \/ t = TInt2 -> zlen b = ext t)) ->
  exists w, urun feq8 feq4 add1000 addf1000 junk TReal (uv_new TReal f0) ops = Ok w /\
  let r0 := fold_left rstep (sessions nsize hs) (uv_open w) in
  (same_members ks r0 ->
  exists w', clone feq8 feq4 add1000 addf1000 junk TReal (echo_if keep) jc jf TReal nsize r0 ks [] [] f0' = Ok w' /\
    (kept keep 0 ds <> [] ->
     exists res last, reads nsize (S (length (kept keep 0 ds))) (uv_open w') = res ++ [(last, RdEof)] /\
       Forall2 (fun d o => exists y, snd o = RdRec y /\ same_rec feq8 feq4 (fst d) y /\
           (forall n t b, user_name n \/ n = "nchan"%string -> look (snd d) n = Some (t, b) -> uvgetvr (fst o) n = Some b) /\
           (forall n, user_name n -> look (snd d) n = None -> uvgetvr (fst o) n = None) /\
           (forall n, preamble_name n -> uvgetvr (fst o) n = Some (pre_val n y)))
         (kept keep 0 ds) res)).
Proof.
  intros H V FEW ds NE HK HN HS HC.
  pose (Tdef := fun r0 n => match rfind r0 n with Some v => v_ty v
     | None => if String.eqb n "nchan" then TInt else TReal end).
  assert (ex0 : exists w, urun feq8 feq4 add1000 addf1000 junk TReal (uv_new TReal f0) ops = Ok w).
  { destruct (C12_records_in_order feq8 feq4 add1000 addf1000 junk TReal f0 nsize ops H V FEW NE) as (w & E & _). eauto. }
  destruct ex0 as [w E]. exists w. split; [exact E|]. intros r0.
  destruct (pipe_main feq8 feq4 add1000 addf1000 junk TReal TReal f0 f0' nsize nsize ops hs ks [] [] (echo_if keep) jc jf
      (Tdef r0) (nodup string_dec (names TReal [] 0 ops)) H H V FEW NE HK) as (w1 & E1 & F & (ND & NM & RT & JN) & M).
  assert (w1 = w) by congruence. subst w1. fold r0 in F, ND, NM, RT, JN, M. fold ds in F, JN, M.
  intros SM. set (rs := reads nsize (length ds) r0) in *.
  set (f := fun k r x => echo_if keep k r (widen jc jf TReal nsize k x)) in *.
  assert (SETALL : forall n, In n (names TReal [] 0 ops) -> forall d, In d ds -> look (snd d) n <> None).
  { intros n Hn. destruct (nth_error ds 0) as [d0|] eqn:D0; [|destruct ds; [congruence|discriminate]].
    eapply dataset_first; [exact D0|]. eapply HS; eauto. }
  assert (INK : forall n d, In d ds -> look (snd d) n <> None -> In n ks).
  { intros n d Hd Hl. apply SM. apply JN. apply SETALL. eapply dataset_names; eauto. }
  assert (RX : Forall2 (echo_row feq8 feq4 nsize) ds rs).
  { eapply Forall2_mp; [|exact (Forall2_in _ _ _ F)]. intros d o ((x & X1 & X2 & X3) & I). exists x.
    split; [exact X1|]. split; [exact X2|]. split; [exact X3|]. destruct (HN d I) as [A _].
    destruct X2 as (_ & _ & _ & _ & _ & X2 & _). congruence. }
  pose proof (echo_expected feq8 feq4 jc jf keep nsize (start ks [] []) ds rs RX 0) as XP. fold f in XP.
  set (out := expected f (start ks [] []) 0 ds rs) in *.
  assert (NCA : nchan_agrees out).
  { unfold nchan_agrees. apply Forall_forall. intros q Hq.
    apply In_nth_error in Hq as [i Hi]. destruct (Forall2_nth _ _ _ _ _ (Forall2_flip _ _ _ XP) Hi) as (d & D1 & D2 & D3 & D4 & D5).
    rewrite D2, D5. apply HN. eapply kept_in. eapply nth_error_In; exact D1. }
  destruct M as (w' & C & R).
  - exact SM.
  - intros v Hv Hc. unfold Tdef. apply In_nth_error in Hv as [i Hi].
    assert (RF : rfind r0 (v_name v) = Some v).
    { unfold rfind. rewrite find_name_map, (find_nth _ _ i ND); [exact Hi|]. now rewrite nth_error_map, Hi. }
    now rewrite RF.
  - unfold Tdef. destruct (rfind r0 "tscale") as [v|] eqn:RF; [|reflexivity].
    apply rfind_in in RF as [A B]. destruct (RT v A) as (_ & _ & _ & _ & X & _). apply X; exact B.
  - unfold Tdef. destruct (rfind r0 "nchan") as [v|] eqn:RF; [|reflexivity].
    apply rfind_in in RF as [A B]. destruct (RT v A) as (_ & _ & _ & X & _). apply X; exact B.
  - split.
    + intros n d (A & _) D0. apply (HS n d); [|exact D0]. apply NM. apply SM; exact A.
    + intros n d t b (_ & _ & _ & A) Hd Hl. eapply HC; eauto.
  - intros n b _ _ X. discriminate X.
  - intros n _ [].
  - eapply echo_good; exact RX.
  - unfold f in *. erewrite (echo_puts feq8 feq4 jc jf keep nsize) by exact RX. rewrite app_nil_r. intros n Hn. apply nodup_In.
    apply in_app_or in Hn as [Hn|Hn]; [apply NM; exact Hn|].
    destruct (nth_error ds 0) as [d0|] eqn:D0; [|destruct ds; [congruence|discriminate]].
    eapply dataset_names; [eapply nth_error_In; exact D0|].
    cbn in Hn. destruct Hn as [Hn|[Hn|[Hn|[Hn|[Hn|[]]]]]]; subst n; try (eapply dataset_corr; [eapply nth_error_In; exact D0|cbn; tauto]).
    destruct (HN d0 (nth_error_In _ _ D0)) as [_ A]. rewrite A. discriminate.
  - unfold few_variables in FEW. cbn [nodup] in FEW.
    destruct (in_dec string_dec "corr"%string (names TReal [] 0 ops)) as [_|X]; [exact FEW|].
    exfalso. apply X. apply corr_named. exact NE.
  - exists w'. split; [exact C|]. intros KN.
    assert (LE : length (kept keep 0 ds) = length out) by (eapply Forall2_length; exact XP).
    destruct R as (res & last & R1 & R2).
    { intros X. rewrite X in LE. destruct (kept keep 0 ds); [congruence|discriminate]. }
    exists res, last. rewrite LE. split; [exact R1|].
    eapply Forall2_mp; [|exact (Forall2_comp _ _ _ _ _ (Forall2_in _ _ _ XP) R2)].
    intros d o ([[d' y] U] & ((D1 & D2 & D3 & D4) & D5) & y' & Y1 & Y2 & Y3 & Y4 & Y5). cbn [fst snd] in *. subst d'.
    apply kept_in in D5.
    exists y'. split; [exact Y1|]. split; [eapply same_rec_trans; eauto|]. split; [|split; [|exact Y5]].
    + intros n t b Hn Hl. eapply Y3; [|destruct Hn as [Hn|Hn]; [left; exact Hn|right; split; [exact Hn|exact NCA]]|exact Hl].
      split; [eapply INK; [exact D5|congruence]|]. split; [intros []|]. split; [reflexivity|].
      destruct Hn as [Hn|Hn]; [apply Hn|subst n; discriminate].
    + intros n Hn Hl. rewrite Y4; [|exact Hn|].
      * rewrite D2. unfold start. destruct (mem n ks && negb (mem n [])); reflexivity.
      * intros (A & _). apply SM in A. exact (SETALL n (NM n A) d D5 Hl).
Qed.

(* ---------- concrete cases ---------- *)
Definition src : list uop :=
  [UPut "lst" TDble (dbl 5); UPut "source" TByte [65; 66; 67]; UPut "npol" TInt [0; 0; 0; 4];
   URec (rec1 10 20 30); UPut "lst" TDble (dbl 6); URec (rec1 10 21 40); URec (rec1 11 20 50); UPut "source" TByte [68];
   URec (rec1 11 21 60)].
Definition written_by (ops : list uop) : writer :=
  match urun list_eqb list_eqb h_add h_addf [] TReal (uv_new TReal f_empty) ops with Ok w => w | Err => uv_new TReal f_empty end.
Definition opened (ops : list uop) (hs : list nat) : reader :=
  fold_left rstep (sessions 2 hs) (uv_open (written_by ops)).
Definition all_vars (r : reader) : list string := map v_name (rd_vars r).
Definition jc0 (k : nat) : list Z := [].
Definition jf0 (k : nat) : list bool := [].

Example src_ok : valid list_eqb list_eqb h_add h_addf TReal 2 None [] [] src /\ few_variables TReal src /\
  dataset TReal [] 0 src <> [] /\ host_ok list_eqb list_eqb h_add TReal /\
  urun list_eqb list_eqb h_add h_addf [] TReal (uv_new TReal f_empty) src = Ok (written_by src).
Proof.
  split; [cbn [valid src]; vstep|]. split; [unfold few_variables; vm_compute; lia|].
  split; [vm_compute; discriminate|]. split; [apply h_ok; auto|vm_compute; reflexivity].
Qed.

Lemma nodup_check (l : list string) : nodup string_dec l = l -> NoDup l.
Proof. intros <-. apply NoDup_nodup. Qed.

Lemma all_ks r : nodup string_dec (all_vars r) = all_vars r -> same_members (rev (all_vars r)) r.
Proof.
  intros H. split; [apply NoDup_rev; apply nodup_check; exact H|]. intros n. symmetry. apply in_rev.
Qed.

Definition env_ok (d : urec * env) : bool :=
  forallb (fun q => (zlen (snd (snd q)) <=? MAXVAR) &&
                    match fst (snd q) with TInt | TInt2 => zlen (snd (snd q)) =? ext (fst (snd q)) | _ => true end) (snd d).
Lemma env_ok_spec d n t b : env_ok d = true -> look (snd d) n = Some (t, b) -> zlen b <= MAXVAR /\ (t = TInt \/ t = TInt2 -> zlen b = ext t).
Proof.
  unfold env_ok. induction (snd d) as [|[m [t' b']] e IH]; cbn [look forallb fst snd]; [discriminate|].
  intros H K. apply andb_prop in H as [H1 H2]. destruct (String.eqb m n); [|auto]. inversion K; subst. apply andb_prop in H1 as [A B].
  split; [lia|]. intros [ -> | -> ]; lia.
Qed.

Example C18_clone_hyps : Forall (fun k => (k <= length (dataset TReal [] 0 src))%nat) [2%nat; 4%nat; 0%nat] /\
  (forall d, In d (dataset TReal [] 0 src) -> r_n (fst d) = 2 /\ look (snd d) "nchan" = Some (TInt, be4 2)) /\
  (forall n d, In n (names TReal [] 0 src) -> nth_error (dataset TReal [] 0 src) 0 = Some d -> look (snd d) n <> None) /\
  (forall n d t b, In d (dataset TReal [] 0 src) -> look (snd d) n = Some (t, b) -> n <> "corr"%string ->
     zlen b <= MAXVAR /\ (t = TInt \/ t = TInt2 -> zlen b = ext t)) /\
  same_members (rev (all_vars (opened src [2%nat; 4%nat; 0%nat]))) (opened src [2%nat; 4%nat; 0%nat]) /\
  kept (fun k => negb (Nat.eqb k 1)) 0 (dataset TReal [] 0 src) <> [].
Proof.
  split; [repeat constructor; vm_compute; lia|].
  split; [intros d H; cbn in H; repeat (destruct H as [<-|H]; [split; vm_compute; reflexivity|]); destruct H|].
  split.
  { intros n d Hn Hd. cbn in Hd. inversion Hd; subst d. apply look_of_in.
    cbn in Hn. cbn. tauto. }
  split.
  { intros n d t b Hd Hl _. eapply env_ok_spec; [|exact Hl]. cbn in Hd.
    repeat (destruct Hd as [<-|Hd]; [vm_compute; reflexivity|]); destruct Hd. }
  split; [apply all_ks; vm_compute; reflexivity|vm_compute; discriminate].
Qed.

(* a function that drops the second record, shifts times and marks the output *)
Definition shift (k : nat) (r : reader) (x : urec) : list put * option urec :=
  ([("mark"%string, TReal, flt (Z.of_nat k)); ("source"%string, TByte, [90; Z.of_nat k])],
   if Nat.eqb k 1 then None
   else Some (Rec (r_u x) (r_v x) (r_w x) (dbl (40 + Z.of_nat k)) (r_bl x) (r_n x) (r_tscale x) (r_corr x) [true; true])).
Definition Tx (n : string) : ty :=
  if mem n ["coord"; "time"; "lst"]%string then TDble else if mem n ["nchan"; "npol"]%string then TInt
  else if String.eqb n "source" then TByte else TReal.
Definition ov_x : list (string * list Z) := [("source"%string, [88; 0])].
Definition ex_x : list string := ["npol"%string].

Definition types_okb (T : string -> ty) (vs : list rvar) : bool :=
  forallb (fun v => String.eqb (v_name v) "corr" || match v_ty v, T (v_name v) with
      | TByte, TByte | TInt, TInt | TReal, TReal | TDble, TDble => true | _, _ => false end) vs.
Lemma types_ok T vs : types_okb T vs = true -> forall v, In v vs -> v_name v <> "corr"%string -> v_ty v = T (v_name v).
Proof.
  intros TYS v Hv Hc. unfold types_okb in TYS. rewrite forallb_forall in TYS. specialize (TYS v Hv). cbv beta in TYS.
  apply String.eqb_neq in Hc. rewrite Hc in TYS. cbn [orb] in TYS. destruct (v_ty v), (T (v_name v)); congruence.
Qed.

Example C18_pipe_hyps :
  let ds := dataset TReal [] 0 src in
  let r0 := opened src [3%nat] in let ks := all_vars r0 in let rs := reads 2 (length ds) r0 in
  let f := fun k r x => shift k r (widen jc0 jf0 TReal 2 k x) in
  let NS := (all_vars r0 ++ ["mark"%string])%list in
  same_members ks r0 /\
  (forall v, In v (rd_vars r0) -> v_name v <> "corr"%string -> v_ty v = Tx (v_name v)) /\
  Tx "tscale"%string = TReal /\ Tx "nchan"%string = TInt /\
  copyable ks ov_x ex_x ds /\
  (forall n b, In n ks -> ~ In n ex_x -> getov ov_x n = Some b -> n <> "corr"%string -> ~ preamble_name n /\ good_put n (Tx n) b) /\
  (forall n, preamble_name n -> ~ In n ex_x) /\
  good_outs list_eqb list_eqb TReal f Tx (tracked ks ov_x ex_x) 2 None (fun n b => uvgetvr r0 n = Some b) 0 rs /\
  incl (map v_name (rd_vars r0) ++ builtins TReal ++ put_names f 0 rs) NS /\ (length NS <= 128)%nat /\
  length (expected f (start ks ov_x ex_x) 0 ds rs) = 3%nat.
Proof.
  intros ds r0 ks rs f NS.
  assert (SM : same_members ks r0).
  { split; [apply nodup_check; vm_compute; reflexivity|]. intros n. reflexivity. }
  split; [exact SM|].
  assert (TYS : types_okb Tx (rd_vars r0) = true) by (vm_compute; reflexivity).
  split.
  { exact (types_ok Tx (rd_vars r0) TYS). }
  split; [reflexivity|]. split; [reflexivity|].
  assert (KS : incl ks ["lst"; "source"; "npol"; "nchan"; "corr"; "coord"; "time"; "baseline"]%string).
  { intros n Hn. vm_compute in Hn. cbn. tauto. }
  split.
  { split.
    - intros n d (A & _) Hd. cbn in Hd. inversion Hd; subst d. apply look_of_in. apply KS in A. cbn in A. cbn. tauto.
    - intros n d t b _ Hd Hl. eapply env_ok_spec; [|exact Hl]. cbn in Hd.
      repeat (destruct Hd as [<-|Hd]; [vm_compute; reflexivity|]); destruct Hd. }
  split.
  { intros n b _ _ Ho _. clear -Ho. unfold ov_x in Ho. cbn [getov] in Ho. destruct (String.eqb_spec "source" n) as [<-|]; [|discriminate]. inversion Ho; subst b.
    split; [intros [X|[X|X]]; discriminate|]. vstep. }
  split; [clear; intros n [ -> | [ -> | -> ] ] [X|[]]; discriminate|].
  assert (NTR : ~ tracked ks ov_x ex_x "mark" /\ ~ tracked ks ov_x ex_x "source").
  { clear -KS; clearbody ks; split; intros (A & _ & B & _); [apply KS in A; cbn in A; repeat (destruct A as [A|A]; [discriminate A|]); destruct A|discriminate B]. }
  destruct NTR as [NT1 NT2].
  split.
  { assert (PO : forall k z, In z [0;1;2;3] -> Forall (fun p : put => good_put (fst (fst p)) (snd (fst p)) (snd p) /\ snd (fst p) = Tx (fst (fst p)) /\
                     ~ tracked ks ov_x ex_x (fst (fst p)) /\ ~ preamble_name (fst (fst p))) [("mark"%string, TReal, flt k); ("source"%string, TByte, [90; z])]).
    { intros k z _. constructor; [|constructor; [|constructor]]; (split; [vstep|]); (split; [reflexivity|]);
      (split; [assumption|]); intros [X|[X|X]]; discriminate. }
    remember rs as rs' eqn:ERS. unfold rs in ERS. change (length ds) with 4%nat in ERS. cbn [reads] in ERS.
    assert (R4 : exists r1 r2 r3 r4, rs' = [(r1, RdRec (rec1 10 20 30)); (r2, RdRec (rec1 10 21 40)); (r3, RdRec (rec1 11 20 50)); (r4, RdRec (rec1 11 21 60))]).
    { subst rs'. do 4 eexists. vm_compute. reflexivity. }
    destruct R4 as (r1 & r2 & r3 & r4 & ->). clear ERS. cbn [good_outs].
    unfold f, shift. cbn [fst snd Nat.eqb Z.of_nat].
    split; [apply PO; cbn; tauto|]. split; [vstep|].
    split.
    { intros n [ -> | [ -> | -> ] ]; [left; reflexivity| |left; reflexivity]. right. intros b [X|X].
      - vm_compute in X. inversion X. reflexivity.
      - subst b. vm_compute. reflexivity. }
    split; [apply PO; cbn; tauto|].
    split; [apply PO; cbn; tauto|]. split; [vstep|].
    split; [intros n [ -> | [ -> | -> ] ]; [left; reflexivity|right; vm_compute; reflexivity|left; reflexivity]|].
    split; [apply PO; cbn; tauto|]. split; [vstep|].
    split; [intros n [ -> | [ -> | -> ] ]; [left; reflexivity|right; vm_compute; reflexivity|left; reflexivity]|]. exact I. }
  split.
  { intros n Hn. vm_compute in Hn. vm_compute. tauto. }
  split; [vm_compute; lia|vm_compute; reflexivity].
Qed.

(* ---------- what the hypotheses exclude really fails ---------- *)
Definition copy_of (mf : nat -> reader -> urec -> list put * option urec) (ops : list uop) (hs : list nat) : res writer :=
  clone list_eqb list_eqb h_add h_addf [] TReal mf jc0 jf0 TReal 2 (opened ops hs) (all_vars (opened ops hs)) [] [] f_empty.
Definition times (w : res writer) (k : nat) : list (option (list Z)) :=
  match w with
  | Ok w' => map (fun o => match snd o with RdRec x => Some (r_t x) | _ => None end) (reads 2 k (uv_open w'))
  | Err => []
  end.

(* A function that gives two records the same time, where the source times differ, is not obeyed:
   the second record comes out with the source's time. (pipe copies the variable time, and uvwrite
   compares the record with the last one written, not with the copied variable.) *)
Definition settime (k : nat) (r : reader) (x : urec) : list put * option urec :=
  ([], Some (Rec (r_u x) (r_v x) (r_w x) (dbl 40) (r_bl x) (r_n x) (r_tscale x) (r_corr x) (r_fl x))).
Theorem C18_same_time_refuted :
  times (copy_of settime [URec (rec1 10 20 30); URec (rec1 11 20 40)] []) 3 = [Some (dbl 40); Some (dbl 11); None].
Proof. vm_compute. reflexivity. Qed.

(* A variable that gets its first value after the first record makes init_from_uv fail. *)
Theorem C18_late_variable_refuted :
  exists ops, valid list_eqb list_eqb h_add h_addf TReal 2 None [] [] ops /\
    copy_of (echo_if (fun _ => true)) ops [] = Err.
Proof.
  exists [URec (rec1 10 20 30); UPut "lst" TDble (dbl 6); URec (rec1 10 21 40)].
  split; [cbn [valid]; vstep|vm_compute; reflexivity].
Qed.

(* So does an array of integers. *)
Theorem C18_integer_array_refuted :
  exists ops, valid list_eqb list_eqb h_add h_addf TReal 2 None [] [] ops /\
    copy_of (echo_if (fun _ => true)) ops [] = Err.
Proof.
  exists [UPut "nschan" TInt [0; 0; 0; 1; 0; 0; 0; 1]; URec (rec1 10 20 30)].
  split; [cbn [valid]; vstep|vm_compute; reflexivity].
Qed.

(* From a decimated source (every second integration), a variable changed at a skipped
   integration keeps its old value in the copy: each skipped read moves the mark copyvr uses. *)
Definition src_dec : list uop :=
  [UPut "gain" TReal (flt 1); URec (rec1 10 20 30); UPut "gain" TReal (flt 2); URec (rec1 11 20 40); URec (rec1 12 20 50)].
Definition copy_dec : res writer :=
  let r := opened src_dec [] in
  bind (init_from_uv r (all_vars r) [] [] (uv_new TReal f_empty) []) (fun p =>
  pipe_dec list_eqb list_eqb h_add h_addf [] TReal 10 2 2 0 (snd p) r (-1) (repeat 0 8) (fst p)).
Definition gains (w : res writer) (k : nat) : list (option (list Z * list Z)) :=
  match w with
  | Ok w' => map (fun o => match snd o, uvgetvr (fst o) "gain" with RdRec x, Some g => Some (r_t x, g) | _, _ => None end) (reads 2 k (uv_open w'))
  | Err => []
  end.
Theorem C18_decimated_source_refuted :
  valid list_eqb list_eqb h_add h_addf TReal 2 None [] [] src_dec /\
  gains (Ok (written_by src_dec)) 4 = [Some (dbl 10, flt 1); Some (dbl 11, flt 2); Some (dbl 12, flt 2); None] /\
  gains copy_dec 3 = [Some (dbl 10, flt 1); Some (dbl 12, flt 1); None].
Proof. split; [unfold src_dec; cbn [valid]; vstep|]. split; vm_compute; reflexivity. Qed.

Print Assumptions C18_pipe.
Print Assumptions C18_clone.
Print Assumptions C18_decimated_source_refuted.
