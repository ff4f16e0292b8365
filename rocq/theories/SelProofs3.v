(* Selection: reading with selection and decimation, over any session. *)
From Verif Require Import Base BaselineModel BaselineProofs SelModel SelSpec SelProofs SelProofs2.
From Coq Require Import QArith Qround Sorted Lqa.
Open Scope Z_scope.
Ltac Zify.zify_post_hook ::= idtac.

Lemma c_read_unfold sel init mv n rest :
  c_read sel init mv n rest =
  if (0 <? mv) && (mv <? n) then (init, mv, n, rest, None) else
  match rest with
  | [] => (init, mv, n + 1, [], None)
  | v :: r =>
    let mv' := if init then mv else match sel with [] => mv | _ => maxvis 0 sel end in
    if selected sel (n + 1) v then (true, mv', n + 1, r, Some v)
    else c_read sel true mv' (n + 1) r
  end.
Proof. destruct rest; reflexivity. Qed.

(* invariants of any session *)
Lemma c_read_inv sel : forall rest init mv n init' mv' n' r x,
  c_read sel init mv n rest = (init', mv', n', r, x) ->
  (sel <> [] -> init = true -> mv = maxvis 0 sel) ->
  (sel <> [] -> init' = true -> mv' = maxvis 0 sel) /\ (sel = [] \/ maxvis 0 sel = 0 -> mv = 0 -> mv' = 0).
Proof.
  induction rest as [|v rest IH]; intros init mv n init' mv' n' r x H I; rewrite c_read_unfold in H.
  - destruct (_ && _); injection H as <- <- <- <- <-; auto.
  - destruct (_ && _); [injection H as <- <- <- <- <-; auto|]. cbv zeta in H.
    set (mv1 := if init then mv else match sel with [] => mv | _ => maxvis 0 sel end) in *.
    assert (J : sel <> [] -> mv1 = maxvis 0 sel).
    { intros NE. unfold mv1. destruct init; auto. destruct sel; congruence. }
    assert (K : sel = [] \/ maxvis 0 sel = 0 -> mv = 0 -> mv1 = 0).
    { intros [E|E] M; unfold mv1; destruct init; auto; subst; auto. destruct sel; auto. }
    clearbody mv1.
    destruct (selected sel (n + 1) v); [injection H as <- <- <- <- <-; auto|].
    destruct (IH _ _ _ _ _ _ _ _ H) as [A B]; auto.
Qed.

Lemma firstn_rep {A} (x : A) : forall k n, (k <= n)%nat -> firstn k (repeat x n) = repeat x k.
Proof. induction k as [|k IH]; intros [|n] H; simpl; auto; try lia. rewrite IH by lia. auto. Qed.

Section Reading.
Variable sel : list clause.
Variable stop_ok : forall n v, rec_ok v -> sel <> [] -> 0 < maxvis 0 sel -> maxvis 0 sel < n -> selected sel n v = false.

Definition todo (n : Z) (rest : list vis) : list vis :=
  map snd (filter (fun x => selected sel (fst x) (snd x)) (numbered (n + 1) rest)).
Definition good (init : bool) (mv n : Z) (rest : list vis) : Prop :=
  (sel = [] -> mv = 0) /\
  (sel <> [] -> (init = true -> mv = maxvis 0 sel) /\ (init = false -> rest = [] \/ n = 0)).

Lemma todo_none n rest : Forall rec_ok rest ->
  (forall m v, n < m -> rec_ok v -> selected sel m v = false) -> todo n rest = [].
Proof.
  unfold todo. revert n. induction rest as [|v r IH]; intros n F H; auto. inversion F; subst. cbn [numbered filter fst snd].
  rewrite (H (n + 1) v) by (auto; lia). apply IH; auto. intros. apply H; auto; lia.
Qed.

Lemma c_read_todo : forall rest init mv n init' mv' n' r x,
  Forall rec_ok rest -> good init mv n rest ->
  c_read sel init mv n rest = (init', mv', n', r, x) ->
  good init' mv' n' r /\ Forall rec_ok r /\ (length r <= length rest)%nat /\
  match x with
  | None => todo n rest = [] /\ todo n' r = []
  | Some v => todo n rest = v :: todo n' r /\ (length r < length rest)%nat
  end.
Proof.
  induction rest as [|v rest IH]; intros init mv n init' mv' n' r x F [G1 G2] H; rewrite c_read_unfold in H.
  - destruct (_ && _); injection H as <- <- <- <- <-; (split; [|split; [|split]]); auto.
    + split; auto.
    + split; auto. intros NE. destruct (G2 NE) as [A B]. split; auto.
  - inversion F as [|? ? Hv F']; subst.
    destruct ((0 <? mv) && (mv <? n)) eqn:S.
    + injection H as <- <- <- <- <-. split; [split; auto|]. split; auto. split; auto.
      apply andb_true_iff in S as [S1 S2]. apply Z.ltb_lt in S1. apply Z.ltb_lt in S2.
      assert (NE : sel <> []) by (intros E; rewrite (G1 E) in S1; lia).
      destruct (G2 NE) as [A B]. destruct init; [|destruct (B eq_refl) as [Q|Q]; [discriminate | lia]].
      assert (T : todo n (v :: rest) = []).
      { apply todo_none; auto. intros m w Hm Hw. rewrite (A eq_refl) in *. apply stop_ok; auto. lia. }
      auto.
    + cbv zeta in H. set (mv1 := if init then mv else match sel with [] => mv | _ => maxvis 0 sel end) in *.
      assert (J : good true mv1 (n + 1) rest).
      { split.
        - intros E. unfold mv1. rewrite E. destruct init; apply G1; auto.
        - intros NE. split; [|discriminate]. intros _. unfold mv1. destruct init; [apply G2; auto|].
          destruct sel; congruence. }
      clearbody mv1.
      assert (TU : todo n (v :: rest) = if selected sel (n + 1) v then v :: todo (n + 1) rest else todo (n + 1) rest).
      { unfold todo. cbn [numbered filter fst snd]. destruct (selected sel (n + 1) v); auto. }
      rewrite TU.
      destruct (selected sel (n + 1) v).
      * injection H as <- <- <- <- <-. split; auto. split; auto. split; [simpl; lia|]. split; auto.
      * destruct (IH _ _ _ _ _ _ _ _ F' J H) as (A & B & C & D). split; auto. split; auto. split; [simpl; lia|].
        destruct x; [destruct D; split; auto; simpl; lia | auto].
Qed.

Definition dec_list (dec phase k : Z) (t : Q) (l : list vis) : list vis :=
  map snd (filter (fun x => (fst x - phase) mod dec =? 0) (integrations k t l)).

Definition sgood (s : rdr) : Prop :=
  s_sel s = sel /\ Forall rec_ok (s_rest s) /\ good (s_init s) (s_maxvis s) (s_callno s) (s_rest s).
Definition left_over (s : rdr) : list vis :=
  dec_list (s_dec s) (s_phase s) (s_int s) (s_cur s) (todo (s_callno s) (s_rest s)).

Lemma rem_mod0 a n : n <> 0 -> (Z.rem a n =? 0) = (a mod n =? 0).
Proof.
  intros N. apply bool_iff. rewrite !Z.eqb_eq. rewrite Z.rem_divide by auto. rewrite Z.mod_divide by auto. tauto.
Qed.

Lemma w_read_spec : forall fuel s s' x, sgood s -> s_dec s <> 0 ->
  (length (s_rest s) < fuel)%nat -> w_read fuel s = (s', x) ->
  sgood s' /\ s_dec s' = s_dec s /\
  match x with
  | None => left_over s = [] /\ left_over s' = []
  | Some v => left_over s = v :: left_over s'
  end.
Proof.
  induction fuel as [|fuel IH]; intros s s' x (E & F & G) D L H; [lia|].
  cbn [w_read] in H. rewrite E in H.
  destruct (c_read sel (s_init s) (s_maxvis s) (s_callno s) (s_rest s)) as [[[[init mv] n] r] y] eqn:R.
  destruct (c_read_todo _ _ _ _ _ _ _ _ _ F G R) as (A & B & C & T).
  destruct y as [v|].
  - destruct T as [T TL].
    set (same := Qeq_bool (v_time v) (s_cur s)) in *.
    set (i := if same then s_int s else s_int s + 1) in *.
    set (c := if same then s_cur s else v_time v) in *.
    assert (LO : left_over s = if (i - s_phase s) mod s_dec s =? 0
       then v :: dec_list (s_dec s) (s_phase s) i c (todo n r) else dec_list (s_dec s) (s_phase s) i c (todo n r)).
    { unfold left_over. rewrite T. unfold dec_list. cbn [integrations]. fold same. unfold i, c.
      destruct same; cbn [filter fst]; match goal with |- context [if ?b then _ :: filter _ _ else _] => destruct b end; reflexivity. }
    cbv zeta in H. rewrite rem_mod0 in H by auto.
    destruct ((i - s_phase s) mod s_dec s =? 0).
    + injection H as <- <-. split; [|split]; auto. split; [reflexivity|]. cbn. auto.
    + apply IH in H; cbn [s_dec s_rest]; auto.
      * destruct H as (H1 & H2 & H3). split; auto. split; auto. rewrite LO. exact H3.
      * split; [reflexivity|]. cbn. auto.
      * lia.
  - injection H as <- <-. destruct T as [T1 T2]. split; [split; [reflexivity | cbn; auto]|]. split; auto.
    unfold left_over. cbn [s_dec s_phase s_int s_cur s_callno s_rest]. rewrite T1, T2. auto.
Qed.

Lemma nreads_spec : forall k s, sgood s -> s_dec s <> 0 ->
  nreads k s = firstn k (map Some (left_over s) ++ repeat None k).
Proof.
  induction k as [|k IH]; intros s G D; auto. cbn [nreads].
  destruct (uv_read s) as [s' x] eqn:R. unfold uv_read in R.
  assert (L : (length (s_rest s) < S (length (s_rest s)))%nat) by lia.
  destruct (w_read_spec _ s s' x G D L R) as (G' & D' & T).
  rewrite (IH s') by (auto; congruence).
  destruct x as [v|].
  - rewrite T. cbn [map app firstn]. f_equal. rewrite !firstn_app. f_equal.
    rewrite map_length. rewrite !firstn_rep by lia. reflexivity.
  - destruct T as [T1 T2]. rewrite T1, T2. cbn [map app]. cbn [repeat firstn]. reflexivity.
Qed.
End Reading.

(* ---- sessions ---- *)
Definition no_vis_prog (p : program) : Prop := Forall (fun g => no_vis (snd g)) p.

Lemma maxvis_no_vis l p : corr l p -> no_vis_prog p -> maxvis 0 l = 0.
Proof.
  intros C N. destruct C as [|c [a cs] l p [A S] C]; auto. inversion N as [|? ? N1 N2]; subst. cbn [snd] in *.
  cbn [maxvis].
  assert (E : filter (isk KVis) (c_opers c) = []).
  { rewrite (st_opers _ _ S). unfold opers_of. clear -N1. induction cs as [|x cs IH]; auto.
    inversion N1; subst. cbn [flat_map]. rewrite IH by auto. destruct x; auto. destruct k; auto; contradiction. }
  assert (G : clause_maxvis 0 (c_opers c) = Some 0).
  { clear -E. induction (c_opers c) as [|o ops IH]; auto. cbn [filter clause_maxvis] in *.
    unfold isk in E at 1. destruct (o_kind o) eqn:K; try discriminate E; apply IH; auto. }
  rewrite G. reflexivity.
Qed.

Lemma to_last_forall (P : call -> Prop) c p : Forall (fun g => Forall P (snd g)) p -> P c ->
  Forall (fun g => Forall P (snd g)) (to_last c p).
Proof.
  induction p as [|[a cs] p IH]; intros F H.
  - simpl. constructor; auto. cbn. auto.
  - inversion F as [|? ? F1 F2]; subst. destruct p as [|g p].
    + simpl. constructor; auto. cbn in *. apply Forall_app. auto.
    + change (to_last c ((a, cs) :: g :: p)) with ((a, cs) :: to_last c (g :: p)). constructor; auto.
Qed.
Lemma prog_step_forall (P : call -> Prop) c p : Forall (fun g => Forall P (snd g)) p -> P c ->
  Forall (fun g => Forall P (snd g)) (prog_step p c).
Proof.
  intros F H. destruct c; cbn [prog_step]; auto using to_last_forall.
  - destruct p; auto. apply Forall_app. split; auto. constructor; auto. cbn. auto.
  - destruct p; auto. apply Forall_app. split; auto. constructor; auto. cbn. auto.
Qed.

Record sinv (recs : list vis) (h : list call) (s : rdr) : Prop := {
  i_all : s_all s = recs;
  i_corr : corr (s_sel s) (in_force h);
  i_first : first_and (in_force h);
  i_int : Forall call_ok h -> prog_int (in_force h);
  i_nov : no_vis h -> no_vis_prog (in_force h) /\ s_maxvis s = 0;
  i_max : s_sel s <> [] -> s_init s = true -> s_maxvis s = maxvis 0 (s_sel s);
  i_dec : (s_dec s, s_phase s) = dec_in_force h;
  i_zero : Forall call_ok h -> s_dec s <> 0 }.

Lemma in_force_snoc h c : in_force (h ++ [c]) = prog_step (in_force h) c.
Proof. unfold in_force. rewrite fold_left_app. reflexivity. Qed.
Lemma dec_snoc h c : dec_in_force (h ++ [c]) = match c with CDecimate n p => (n, p) | _ => dec_in_force h end.
Proof. unfold dec_in_force. rewrite fold_left_app. reflexivity. Qed.

Lemma w_read_inv fuel : forall s s' x, w_read fuel s = (s', x) ->
  (s_sel s <> [] -> s_init s = true -> s_maxvis s = maxvis 0 (s_sel s)) ->
  s_all s' = s_all s /\ s_sel s' = s_sel s /\ s_dec s' = s_dec s /\ s_phase s' = s_phase s /\
  (s_sel s <> [] -> s_init s' = true -> s_maxvis s' = maxvis 0 (s_sel s)) /\
  (s_sel s = [] \/ maxvis 0 (s_sel s) = 0 -> s_maxvis s = 0 -> s_maxvis s' = 0).
Proof.
  induction fuel as [|fuel IH]; intros s s' x H I.
  - injection H as <- <-. auto 10.
  - cbn [w_read] in H.
    destruct (c_read (s_sel s) (s_init s) (s_maxvis s) (s_callno s) (s_rest s)) as [[[[init mv] n] r] y] eqn:R.
    destruct (c_read_inv _ _ _ _ _ _ _ _ _ _ R I) as [A B].
    destruct y as [v|].
    + cbv zeta in H. destruct (Z.rem _ _ =? 0).
      * injection H as <- <-. cbn. auto 10.
      * apply IH in H; cbn; auto. cbn in H. destruct H as (H1 & H2 & H3 & H4 & H5 & H6). auto 10.
    + injection H as <- <-. cbn. auto 10.
Qed.


Lemma sstep_inv recs h s o s' : sinv recs h s -> sstep s o = Ok s' ->
  sinv recs (h ++ calls [o]) s'.
Proof.
  intros I H. destruct I as [I1 I2 I3 I4 I5 I6 I7 I8]. destruct o as [c| |]; cbn [sstep calls flat_map app] in *.
  - assert (P1 : forall P : call -> Prop, Forall P (h ++ [c]) -> Forall P h /\ P c).
    { intros P F. apply Forall_app in F as [F1 F2]. inversion F2; auto. }
    assert (NV : no_vis (h ++ [c]) -> no_vis_prog (in_force (h ++ [c]))).
    { intros N. destruct (P1 _ N) as [N1 N2]. rewrite in_force_snoc. destruct (I5 N1) as [A _].
      apply prog_step_forall; auto. }
    assert (PI : Forall call_ok (h ++ [c]) -> prog_int (in_force (h ++ [c]))).
    { intros N. destruct (P1 _ N) as [N1 N2]. rewrite in_force_snoc. apply prog_step_forall; auto. apply I4; auto. }
    destruct (match c with CDecimate n p => true | _ => false end) eqn:DC.
    + destruct c as [ | | | | | | n p]; try discriminate. injection H as <-.
      constructor; cbn; auto.
      * rewrite in_force_snoc. auto.
      * rewrite in_force_snoc. auto.
      * intros N. split; auto. apply I5. apply (P1 _ N).
      * rewrite dec_snoc. auto.
      * intros N. destruct (P1 _ N) as [_ N2]. exact N2.
    + assert (H' : bind (uvselect (s_sel s) c) (fun l =>
           Ok (Rdr (s_all s) (s_rest s) (s_callno s) l false (s_maxvis s) (s_dec s) (s_phase s) (s_int s) (s_cur s))) = Ok s').
      { destruct c; auto; discriminate. }
      clear H. destruct (uvselect (s_sel s) c) as [l|] eqn:U; cbn [bind] in H'; [|discriminate].
      injection H' as <-. constructor; cbn; auto.
      * rewrite in_force_snoc. eapply uvselect_corr; eauto.
      * rewrite in_force_snoc. apply first_and_step; auto.
      * intros N. split; auto. apply I5. apply (P1 _ N).
      * discriminate.
      * rewrite dec_snoc. destruct c; auto; discriminate.
      * intros N. apply I8. apply (P1 _ N).
  - rewrite app_nil_r. injection H as <-. unfold uv_read. destruct (w_read _ s) as [s1 x] eqn:W. cbn [fst].
    destruct (w_read_inv _ _ _ _ W I6) as (A & B & C & D & E & F).
    constructor; rewrite ?A, ?B, ?C, ?D; auto.
    + intros N. destruct (I5 N) as [N1 N2]. split; auto. apply F; auto.
      right. eapply maxvis_no_vis; eauto.
  - rewrite app_nil_r. injection H as <-. constructor; cbn; auto.
Qed.

Lemma srun_inv recs l : forall h s s', sinv recs h s -> srun s l = Ok s' -> sinv recs (h ++ calls l) s'.
Proof.
  induction l as [|o l IH]; intros h s s' I H; cbn [srun] in H.
  - injection H as <-. simpl. rewrite app_nil_r. auto.
  - destruct (sstep s o) as [s1|] eqn:E; cbn [bind] in H; [|discriminate].
    assert (J := sstep_inv _ _ _ _ _ I E). specialize (IH _ _ _ J H).
    rewrite <- app_assoc in IH. unfold calls in *. rewrite <- flat_map_app in IH. exact IH.
Qed.

Lemma fresh_inv recs : sinv recs [] (uv_fresh recs).
Proof.
  constructor; cbn; auto; try congruence; try (intros; lia).
  - constructor.
  - constructor.
  - intros. split; auto. constructor.
Qed.

Lemma kept_todo sel p recs : corr sel p -> prog_ok p -> Forall rec_ok recs -> forall n, 0 <= n ->
  todo sel n recs = map snd (filter (fun x => prog_keeps p (fst x) (snd x)) (numbered (n + 1) recs)).
Proof.
  intros C G F. unfold todo. induction F as [|v r Hv F IH]; intros n Hn; auto.
  cbn [numbered filter fst snd]. rewrite (selected_spec _ _ _ _ C G Hv) by lia.
  specialize (IH (n + 1)). destruct (prog_keeps p (n + 1) v); cbn [map]; rewrite IH by lia; reflexivity.
Qed.

Lemma kept_sub p recs : Forall rec_ok recs -> Forall rec_ok (kept p recs).
Proof.
  unfold kept. generalize 1. intros n F. revert n. induction F as [|v r Hv F IH]; intros n; [constructor|]; cbn [numbered filter].
  destruct (prog_keeps p (fst (n, v)) (snd (n, v))); cbn [map]; auto.
Qed.

Lemma dec_decimated n p l : Forall rec_ok l -> dec_list n p (-1) (- (1)) l = decimated n p l.
Proof.
  intros F. unfold dec_list, decimated, with_integration. destruct l as [|v r]; auto.
  inversion F as [|? ? Hv ?]; subst. cbn [integrations].
  assert (E : Qeq_bool (v_time v) (- (1)) = false).
  { destruct (Qeq_bool (v_time v) (- (1))) eqn:E; auto. apply Qeq_bool_iff in E. destruct Hv as (_ & _ & T). lra. }
  rewrite E. assert (E2 : Qeq_bool (v_time v) (v_time v) = true) by (apply Qeq_bool_iff; reflexivity). rewrite E2.
  reflexivity.
Qed.

Theorem session recs h s :
  Forall rec_ok recs -> Forall call_ok (calls h) -> prog_ok (in_force (calls h)) ->
  in_force (calls h) <> [] \/ no_vis (calls h) ->
  srun (uv_fresh recs) h = Ok s ->
  forall k, nreads k (uv_rewind s) =
    firstn k (map Some (let '(n, p) := dec_in_force (calls h) in decimated n p (kept (in_force (calls h)) recs))
              ++ repeat None k).
Proof.
  intros F CO G NE R k. assert (I := srun_inv recs h [] _ s (fresh_inv recs) R). cbn [app] in I.
  destruct I as [I1 I2 I3 I4 I5 I6 I7 I8].
  rewrite (nreads_spec (s_sel s)).
  - f_equal. f_equal. f_equal. unfold left_over. cbn [uv_rewind s_dec s_phase s_int s_cur s_callno s_rest].
    rewrite (kept_todo _ _ _ I2 G) by (rewrite ?I1; auto; lia). rewrite I1.
    fold (kept (in_force (calls h)) recs). rewrite <- I7. apply dec_decimated. apply kept_sub; auto.
  - intros n v Hv Hne Hm Hn. eapply maxvis_sound; eauto.
  - split; [reflexivity|]. cbn [uv_rewind s_rest s_init s_maxvis s_callno]. rewrite I1. split; auto. split.
    + intros E. rewrite E in I2. inversion I2 as [E2|]; subst. destruct NE as [NE|NE]; [congruence|]. apply I5; auto.
    + intros Hn. split; auto.
  - cbn [uv_rewind s_dec]. auto.
Qed.
