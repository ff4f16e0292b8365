From Coq Require Import QArith Ascii String.
From Verif Require Import Base SelModel SelSpec SelProofs3 SelProps ScriptModel ScriptSpec ScriptProofs ScriptProofs2 ScriptProofs3 ScriptProps RfModel RfSpec.
Ltac Zify.zify_post_hook ::= idtac.
Open Scope Z_scope.
Local Notation length := List.length.

Lemma kept_nil recs : kept [] recs = recs.
Proof. rewrite (kept_filter [] recs (fun _ => true)); [|reflexivity]. induction recs; cbn; congruence. Qed.

Lemma first_read v r : Forall rec_ok (v :: r) -> snd (uv_read (uv_fresh (v :: r))) = Some v.
Proof.
  intros F. assert (H := C16_selected_records (v :: r) [] (uv_fresh (v :: r)) F).
  specialize (H ltac:(constructor) ltac:(constructor)). specialize (H (or_intror (Forall_nil _)) eq_refl eq_refl 1%nat).
  change (uv_rewind (uv_fresh (v :: r))) with (uv_fresh (v :: r)) in H. change (in_force (calls [])) with (@nil (bool * list call)) in H. rewrite kept_nil in H. cbn [nreads map app firstn] in H.
  destruct (uv_read (uv_fresh (v :: r))) as [s x]. cbn [snd]. congruence.
Qed.

Lemma open_ok f : f_recs f <> [] -> Forall rec_ok (f_recs f) ->
  exists s, open f = Ok s /\ srun (uv_fresh (f_recs f)) [SRead; SRewind] = Ok s.
Proof.
  intros NE F. unfold open. destruct (f_recs f) as [|v r]; [congruence|]. rewrite first_read by exact F.
  eexists. split; [reflexivity|]. reflexivity.
Qed.
Lemma open_nil f : f_recs f = [] -> open f = Err.
Proof. intros E. unfold open. rewrite E. reflexivity. Qed.

Lemma selects_srun cs : forall s, selects s cs = srun s (map SSel cs).
Proof. induction cs as [|c cs IH]; intros s; cbn [selects map srun]; [reflexivity|]. cbn [sstep]. destruct (uv_select s c); cbn [bind]; auto. Qed.
Lemma srun_app a : forall s b, srun s (a ++ b) = bind (srun s a) (fun s' => srun s' b).
Proof. induction a as [|o a IH]; intros s b; cbn [app srun]; [reflexivity|]. destruct (sstep s o); cbn [bind]; auto. Qed.

(* selection calls do not move the reader *)
Lemma select_stays s c s' : uv_select s c = Ok s' -> uv_rewind s = s -> uv_rewind s' = s'.
Proof.
  intros H R. unfold uv_rewind in *. destruct s as [al re n se ini mv de ph it cu]. cbn [s_all s_rest s_callno s_sel s_init s_maxvis s_dec s_phase s_int s_cur] in *.
  injection R as <- <- <- <-. destruct c; cbn [uv_select] in H;
    try (match type of H with bind ?x _ = _ => destruct x; [|discriminate] end; cbn [bind] in H); injection H as <-; reflexivity.
Qed.
Lemma selects_stay cs : forall s s', srun s (map SSel cs) = Ok s' -> uv_rewind s = s -> uv_rewind s' = s'.
Proof.
  induction cs as [|c cs IH]; intros s s' H R; cbn [map srun] in H; [injection H as <-; exact R|].
  cbn [sstep] in H. destruct (uv_select s c) as [s1|] eqn:E; [|discriminate]. cbn [bind] in H. eapply IH; [exact H|]. eapply select_stays; eauto.
Qed.

Fixpoint takes (a : acc) (l : list vis) : res acc :=
  match l with [] => Ok a | v :: r => bind (take a v) (fun a' => takes a' r) end.
Lemma takes_app l : forall a m, takes a (l ++ m) = bind (takes a l) (fun a' => takes a' m).
Proof. induction l as [|v l IH]; intros a m; cbn [app takes]; [reflexivity|]. destruct (take a v); cbn [bind]; auto. Qed.

Lemma read_all_takes L : forall fuel s a, (length L < fuel)%nat -> nreads (S (length L)) s = map Some L ++ [None] ->
  read_all fuel s a = takes a L.
Proof.
  induction L as [|v L IH]; intros fuel s a Hf H; (destruct fuel as [|fuel]; [cbn [length] in Hf; lia|]); cbn [read_all takes].
  - cbn [length nreads map app] in H. destruct (uv_read s) as [s' x]. injection H as ->. reflexivity.
  - cbn [length] in H, Hf. change (nreads (S (S (length L))) s) with (let '(s', x) := uv_read s in x :: nreads (S (length L)) s') in H.
    destruct (uv_read s) as [s' x]. cbn [map app] in H. injection H as -> H. destruct (take a v) as [a'|]; cbn [bind]; [|reflexivity].
    apply IH; [lia|exact H].
Qed.

Lemma filter_len {A} (f : A -> bool) l : (length (filter f l) <= length l)%nat.
Proof. induction l as [|x l IH]; cbn; [lia|]. destruct (f x); cbn; lia. Qed.
Lemma integrations_len l : forall k t, length (integrations k t l) = length l.
Proof. induction l as [|v l IH]; intros k t; cbn [integrations]; [reflexivity|]. destruct (Qeq_bool _ _); cbn [length]; rewrite IH; reflexivity. Qed.
Lemma decimated_len n p l : (length (decimated n p l) <= length l)%nat.
Proof.
  unfold decimated. rewrite map_length. eapply Nat.le_trans; [apply filter_len|]. unfold with_integration.
  destruct l as [|v l]; [cbn; lia|]. rewrite integrations_len. lia.
Qed.
Lemma wanted_len es ps d p l : (length (wanted es ps d p l) <= length l)%nat.
Proof.
  unfold wanted. destruct (1 <? d); [|apply filter_len]. eapply Nat.le_trans; [apply decimated_len|apply filter_len].
Qed.

Lemma firstn_all_none {A} (l : list A) : firstn (S (length l)) (map Some l ++ repeat None (S (length l))) = map Some l ++ [None].
Proof.
  rewrite firstn_app, map_length. replace (S (length l) - length l)%nat with 1%nat by lia.
  rewrite firstn_all2 by (rewrite map_length; lia). reflexivity.
Qed.

(* the calls uv_selector makes for entries, and what they keep *)
Lemma selector_program recs l pol :
  Forall rec_ok recs -> Forall entry_ok l -> pol <> Some [] ->
  exists cs, uv_selector (Some l) pol = Ok cs /\ Forall easy cs /\ prog_ok (in_force cs) /\
    kept (in_force cs) recs = filter (entries_keep pol l) recs.
Proof.
  intros FR FE NP. destruct l as [|e l].
  - exists []. split; [reflexivity|]. split; [constructor|]. split; [constructor|].
    change (in_force []) with (@nil (bool * list call)). rewrite kept_nil. cbn [entries_keep]. clear. induction recs; cbn; congruence.
  - exists (group_of pol e ++ rest_calls pol l). split; [apply entries_calls_first; auto|]. split; [|split].
    + inversion FE as [|? ? He Fl]; subst. apply Forall_app. split; [apply group_easy; auto|].
      clear -Fl. induction Fl as [|x l Hx F IH]; [constructor|]. cbn [rest_calls flat_map]. rewrite <- app_comm_cons.
      constructor; [unfold link; destruct (e_inc x); exact I|]. apply Forall_app. split; [apply group_easy; auto | exact IH].
    + rewrite in_force_prog. unfold prog_of. constructor; [apply group_ok_of|]. clear. induction l; constructor; auto. apply group_ok_of.
    + rewrite in_force_prog. apply kept_filter. intros n v Hv. rewrite Forall_forall in FR. apply prog_meaning; auto.
Qed.

Lemma in_force_dec cs n p : in_force (cs ++ [CDecimate n p]) = in_force cs.
Proof. unfold in_force. rewrite fold_left_app. reflexivity. Qed.
Lemma dec_in_force_dec cs n p : dec_in_force (cs ++ [CDecimate n p]) = (n, p).
Proof. unfold dec_in_force. rewrite fold_left_app. reflexivity. Qed.

Definition polmeans (polstr : option str) (pols : option (list Z)) : Prop :=
  match polstr, pols with
  | None, None => True
  | Some s, Some l => map_res pol_of_str (split ","%char s) = Ok l
  | _, _ => False
  end.
Lemma polmeans_ne polstr pols : polmeans polstr pols -> pols <> Some [].
Proof.
  destruct polstr as [s|], pols as [l|]; cbn; try tauto; try discriminate. intros H E. injection E as ->.
  pose proof (split_ne ","%char s) as N. destruct (split ","%char s) as [|x r]; [congruence|]. cbn [map_res] in H.
  destruct (pol_of_str x); cbn [bind] in H; [|discriminate]. destruct (map_res pol_of_str r); discriminate.
Qed.

Lemma file_reads f texts items polstr pols dec phs a :
  f_recs f <> [] -> Forall rec_ok (f_recs f) -> 0 <= f_nants f <= 2047 ->
  Forall2 item_text texts items -> Forall (ants_below 2047) items -> polmeans polstr pols ->
  read_file (Some (join ","%char texts)) polstr dec phs a f =
  takes a (wanted (meaning (f_nants f) items) pols dec phs (f_recs f)).
Proof.
  intros NE FR N T B P. unfold read_file. destruct (open_ok f NE FR) as (s & E & R). rewrite E. cbn [bind].
  set (l := meaning (f_nants f) items).
  assert (FE : Forall entry_ok l) by (eapply meaning_ok; eauto; lia).
  destruct (selector_program (f_recs f) l pols FR FE (polmeans_ne _ _ P)) as (cs & C1 & C2 & C3 & C4).
  assert (SC : selector_calls f (Some (join ","%char texts)) polstr = Ok cs).
  { unfold selector_calls. rewrite (parse_ants_meaning texts items) by (auto; lia). fold l.
    destruct polstr as [p|], pols as [q|]; cbn [polmeans] in P; try contradiction; [rewrite P|]; cbn [bind]; exact C1. }
  rewrite SC. cbn [bind]. rewrite selects_srun.
  set (cs' := cs ++ if dec >? 1 then [CDecimate dec phs] else []).
  assert (RUN : exists s', srun s (map SSel cs') = Ok s').
  { unfold cs'. rewrite map_app, srun_app. destruct (easy_run cs C2 s) as [s1 E1]. rewrite E1. cbn [bind].
    destruct (dec >? 1); cbn; eauto. }
  destruct RUN as [s' E']. rewrite E'. cbn [bind].
  assert (STAY : uv_rewind s' = s').
  { eapply selects_stay; [exact E'|]. cbn [srun sstep bind] in R. injection R as <-. reflexivity. }
  assert (WHOLE : srun (uv_fresh (f_recs f)) ([SRead; SRewind] ++ map SSel cs') = Ok s').
  { rewrite srun_app, R. cbn [bind]. exact E'. }
  assert (CALLS : calls ([SRead; SRewind] ++ map SSel cs') = cs').
  { change (calls (map SSel cs') = cs'). apply calls_SSel. }
  destruct (easy_facts cs C2) as (K1 & K2 & K3).
  assert (FORCE : in_force cs' = in_force cs) by (unfold cs'; destruct (dec >? 1); [apply in_force_dec|rewrite app_nil_r; reflexivity]).
  assert (NV : no_vis cs').
  { unfold cs', no_vis. apply Forall_app. split; [exact K2|]. destruct (dec >? 1); constructor; [exact I|constructor]. }
  assert (OK : Forall call_ok cs').
  { unfold cs'. apply Forall_app. split; [exact K1|]. destruct (dec >? 1) eqn:D; constructor; [cbn; lia|constructor]. }
  apply read_all_takes; [pose proof (wanted_len l pols dec phs (f_recs f)); lia|].
  rewrite <- STAY.
  assert (D : forall k, nreads k (uv_rewind s') =
    firstn k (map Some (let '(n, p) := dec_in_force cs' in decimated n p (kept (in_force cs') (f_recs f))) ++ repeat None k)).
  { intros k. pose proof (C14_decimation (f_recs f) ([SRead; SRewind] ++ map SSel cs') s' FR) as D. rewrite CALLS in D.
    apply D; [exact OK|rewrite FORCE; exact C3|right; exact NV|exact WHOLE]. }
  rewrite D, FORCE, C4. clear D.
  assert (W : (let '(n, p) := dec_in_force cs' in decimated n p (filter (entries_keep pols l) (f_recs f))) = wanted l pols dec phs (f_recs f)).
  { unfold wanted, cs'. destruct (dec >? 1) eqn:D.
    - rewrite dec_in_force_dec. destruct (Z.ltb_spec 1 dec); [reflexivity|lia].
    - rewrite app_nil_r, K3. destruct (Z.ltb_spec 1 dec); [lia|]. apply decimated_1. }
  rewrite W. apply firstn_all_none.
Qed.

Lemma files_read files texts items polstr pols dec phs : forall a,
  Forall (fun f => f_recs f <> [] /\ Forall rec_ok (f_recs f) /\ 0 <= f_nants f <= 2047) files ->
  Forall2 item_text texts items -> Forall (ants_below 2047) items -> polmeans polstr pols ->
  read_each (Some (join ","%char texts)) polstr dec phs a files =
  takes a (flat_map (fun f => wanted (meaning (f_nants f) items) pols dec phs (f_recs f)) files).
Proof.
  induction files as [|f files IH]; intros a F T B P; cbn [read_each flat_map]; [reflexivity|].
  inversion F as [|? ? (F1 & F2 & F3) F']; subst. rewrite (file_reads f texts items polstr pols) by auto. rewrite takes_app.
  destruct (takes a _) as [a'|]; cbn [bind]; [|reflexivity]. apply IH; auto.
Qed.

(* ---- polarisations ---- *)
Lemma table_names : pol_table = map (fun x => (lit (snd x), fst x)) pol_names.
Proof. reflexivity. Qed.
Lemma find_code l q : (forall c n d m, In (c, n) l -> In (d, m) l -> c = d -> n = m) ->
  match find (fun x : str * Z => Qeq_bool (inject_Z (snd x)) q) (map (fun x => (lit (snd x), fst x)) l) with
  | Some x => forall s, (exists c n, In (c, n) l /\ (q == inject_Z c)%Q /\ s = lit n) <-> s = fst x
  | None => forall c n, In (c, n) l -> ~ (q == inject_Z c)%Q
  end.
Proof.
  intros INJ. destruct (find _ _) as [x|] eqn:E.
  - apply find_some in E as [I Q]. apply in_map_iff in I as ((c & n) & <- & I). cbn [fst snd] in *. apply Qeq_bool_iff in Q.
    intros s. split.
    + intros (d & m & I' & Q' & ->). f_equal. apply (INJ d m c n I' I). rewrite <- Q in Q'. unfold Qeq in Q'. cbn in Q'. lia.
    + intros ->. exists c, n. split; [exact I|]. split; [symmetry; exact Q|reflexivity].
  - intros c n I Q. assert (H := find_none _ _ E (lit n, c)). cbn [snd] in H.
    rewrite (proj2 (Qeq_bool_iff _ _)) in H by (symmetry; exact Q). discriminate H.
    apply in_map_iff. exists (c, n). split; [reflexivity|exact I].
Qed.
Lemma names_inj : forall c n d m, In (c, n) pol_names -> In (d, m) pol_names -> c = d -> n = m.
Proof.
  intros c n d m H1 H2 ->. unfold pol_names in *. cbn [In] in *.
  repeat (destruct H1 as [H1|H1]; [injection H1 as <- <-; repeat (destruct H2 as [H2|H2]; [first [discriminate H2|injection H2; auto]|]); contradiction|]). contradiction.
Qed.
Lemma named_iff v s : pol_named v s <-> str_of_pol (v_num v KPol) = Ok s.
Proof.
  unfold pol_named, str_of_pol. rewrite table_names. assert (H := find_code pol_names (v_num v KPol) names_inj).
  destruct (find _ _) as [x|].
  - rewrite H. split; [intros ->; reflexivity|intros E; injection E as <-; reflexivity].
  - split; [intros (c & n & I & Q & _); exfalso; eapply H; eauto|discriminate].
Qed.

(* ---- dictionaries ---- *)
Lemma key_eqb_eq a b : key_eqb a b = true <-> a = b.
Proof.
  destruct a as [[i j] p], b as [[i' j'] p']. unfold key_eqb. cbn [fst snd]. rewrite !andb_true_iff, !Z.eqb_eq.
  destruct (list_eq_dec ascii_dec p p') as [E|E]; split; intros H.
  - destruct H as [[-> ->] _]. subst. reflexivity.
  - injection H as -> -> ->. auto.
  - destruct H as [_ H]. discriminate H.
  - injection H as -> -> ->. congruence.
Qed.
Lemma kget_kset {A} (d : list (key * A)) k x m : kget (kset d k x) m = if key_eqb k m then Some x else kget d m.
Proof.
  induction d as [|[n y] d IH]; cbn [kset kget]; [reflexivity|].
  destruct (key_eqb n k) eqn:E; cbn [kget].
  - apply key_eqb_eq in E. subst n. destruct (key_eqb k m); reflexivity.
  - rewrite IH. destruct (key_eqb n m) eqn:N; [|reflexivity]. apply key_eqb_eq in N. subst n.
    destruct (key_eqb k m) eqn:K; [|reflexivity]. apply key_eqb_eq in K. subst k.
    rewrite (proj2 (key_eqb_eq m m) eq_refl) in E. discriminate.
Qed.

(* ---- rows ---- *)
Definition rows {A} (d : list (key * list A)) (k : key) : list A := match kget d k with Some r => r | None => [] end.
Lemma rows_push {A} (d : list (key * list A)) k x m : rows (kpush d k x) m = if key_eqb k m then rows d m ++ [x] else rows d m.
Proof. unfold rows, kpush. rewrite kget_kset. destruct (key_eqb k m) eqn:E; [apply key_eqb_eq in E; subst; reflexivity|reflexivity]. Qed.
Lemma ro_app {A} (f : vis -> A) k l r v : rows_of f k l r ->
  (rec_key v k -> rows_of f k (l ++ [v]) (r ++ [f v])) /\ (~ rec_key v k -> rows_of f k (l ++ [v]) r).
Proof.
  induction 1 as [|w l r K H [IH1 IH2]|w l r K H [IH1 IH2]]; cbn [app].
  - split; intros K; [apply ro_take|apply ro_skip]; auto; constructor.
  - split; intros K'; apply ro_take; auto.
  - split; intros K'; apply ro_skip; auto.
Qed.

Lemma rec_key_iff v k s : str_of_pol (v_num v KPol) = Ok s -> (rec_key v k <-> key_eqb (v_i v, v_j v, s) k = true).
Proof.
  intros E. rewrite key_eqb_eq. destruct k as [[i j] p]. unfold rec_key. cbn [fst snd]. rewrite named_iff, E.
  split; [intros (-> & -> & H); injection H as ->; reflexivity|intros H; injection H as -> -> ->; auto].
Qed.

(* ---- integrations ---- *)
Definition fi {A} (f : vis -> A) l := firsts f (integration_groups l).
Lemma ig_head v r : exists g gs, integration_groups (v :: r) = (v :: g) :: gs.
Proof.
  cbn [integration_groups]. destruct (integration_groups r) as [|[|w g] gs]; [eauto|eauto|]. destruct (Qeq_bool _ _); eauto.
Qed.
Lemma fi_cons2 {A} (f : vis -> A) a b r : exists t, fi f (b :: r) = f b :: t /\
  fi f (a :: b :: r) = if Qeq_bool (v_time a) (v_time b) then f a :: t else f a :: f b :: t.
Proof.
  unfold fi. destruct (ig_head b r) as (g & gs & E). 
  change (integration_groups (a :: b :: r)) with (match integration_groups (b :: r) with
              | (w :: g) :: gs => if Qeq_bool (v_time a) (v_time w) then (a :: w :: g) :: gs else [a] :: (w :: g) :: gs
              | gs => [a] :: gs end).
  rewrite E. exists (firsts f gs). split; [reflexivity|]. destruct (Qeq_bool _ _); reflexivity.
Qed.
Lemma fi_snoc {A} (f : vis -> A) l w v : fi f ((l ++ [w]) ++ [v]) = fi f (l ++ [w]) ++ (if Qeq_bool (v_time w) (v_time v) then [] else [f v]).
Proof.
  induction l as [|a l IH].
  - cbn [app]. destruct (fi_cons2 f w v []) as (t & E1 & E2). rewrite E2. cbn in E1. injection E1 as <-.
    destruct (Qeq_bool _ _); reflexivity.
  - cbn [app]. assert (X : exists b r, l ++ [w] = b :: r) by (destruct l; cbn; eauto). destruct X as (b & r & X).
    rewrite X in *. cbn [app] in *. destruct (fi_cons2 f a b (r ++ [v])) as (t & E1 & E2). destruct (fi_cons2 f a b r) as (t' & E1' & E2').
    rewrite E1, E1' in IH. injection IH as ->. rewrite E2, E2'. destruct (Qeq_bool (v_time a) (v_time b)); reflexivity.
Qed.
Lemma last_opt_snoc {A} (l : list A) x : last_opt (l ++ [x]) = Some x.
Proof. unfold last_opt. rewrite rev_unit. reflexivity. Qed.

Record inv (l : list vis) (a : acc) : Prop := {
  in_times : a_times a = fi v_time l;
  in_lsts : a_lsts a = fi (fun v => v_num v KLst) l;
  in_last : forall m w, l = m ++ [w] -> exists t, last_opt (a_times a) = Some t /\ (t == v_time w)%Q;
  in_data : forall k, rows_of v_data k l (rows (a_data a) k);
  in_flgs : forall k, rows_of v_flags k l (rows (a_flgs a) k);
  in_dkeys : forall k, kget (a_data a) k <> None <-> exists v, In v l /\ rec_key v k;
  in_fkeys : forall k, kget (a_flgs a) k <> None <-> exists v, In v l /\ rec_key v k }.

Lemma inv_nil : inv [] (Acc [] [] [] []).
Proof.
  constructor; try reflexivity.
  - intros m w H. destruct m; discriminate.
  - intros k. constructor.
  - intros k. constructor.
  - intros k. split; [intros H; exfalso; apply H; reflexivity|intros (v & [] & _)].
  - intros k. split; [intros H; exfalso; apply H; reflexivity|intros (v & [] & _)].
Qed.

Lemma keys_push {A} (d : list (key * list A)) (l : list vis) v s x k :
  str_of_pol (v_num v KPol) = Ok s ->
  (kget d k <> None <-> exists v, In v l /\ rec_key v k) ->
  (kget (kpush d (v_i v, v_j v, s) x) k <> None <-> exists w, In w (l ++ [v]) /\ rec_key w k).
Proof.
  intros E H. unfold kpush. rewrite kget_kset. destruct (key_eqb (v_i v, v_j v, s) k) eqn:K.
  - split; [intros _|intros _; discriminate]. exists v. split; [apply in_or_app; right; left; reflexivity|]. apply (rec_key_iff v k s E). exact K.
  - rewrite H. split; intros (w & I & R).
    + exists w. split; [apply in_or_app; auto|exact R].
    + apply in_app_or in I as [I|[->|[]]]; [exists w; auto|]. apply (rec_key_iff w k s E) in R. congruence.
Qed.

Lemma inv_step l a v s : inv l a -> str_of_pol (v_num v KPol) = Ok s -> exists a', take a v = Ok a' /\ inv (l ++ [v]) a'.
Proof.
  intros [I1 I2 I3 I4 I5 I6 I7] E. unfold take. rewrite E. cbn [bind]. eexists. split; [reflexivity|].
  set (new := match last_opt (a_times a) with None => true | Some t => negb (Qeq_bool t (v_time v)) end).
  assert (NEW : forall (A : Type) (f : vis -> A), (if new then fi f l ++ [f v] else fi f l) = fi f (l ++ [v])).
  { intros A f. destruct l as [|x l'] using rev_ind.
    - unfold new. rewrite I1. reflexivity.
    - destruct (I3 l' x eq_refl) as (t & Ht & Q). unfold new. rewrite Ht, fi_snoc.
      assert (B : Qeq_bool t (v_time v) = Qeq_bool (v_time x) (v_time v)).
      { apply eq_true_iff_eq. rewrite !Qeq_bool_iff, Q. reflexivity. }
      rewrite B. destruct (Qeq_bool (v_time x) (v_time v)); cbn [negb]; [rewrite app_nil_r|]; reflexivity. }
  constructor; cbn [a_times a_lsts a_data a_flgs].
  - rewrite I1. apply NEW.
  - rewrite I2. apply NEW.
  - intros m w H. apply app_inj_tail in H as [<- <-]. unfold new. destruct l as [|x l'] using rev_ind.
    + rewrite I1. cbn. exists (v_time v). split; reflexivity.
    + destruct (I3 l' x eq_refl) as (t & Ht & Q). rewrite Ht. destruct (Qeq_bool t (v_time v)) eqn:B; cbn [negb].
      * exists t. split; [exact Ht|]. apply Qeq_bool_iff. exact B.
      * exists (v_time v). split; [apply last_opt_snoc|reflexivity].
  - intros k. rewrite rows_push. destruct (ro_app v_data k l _ v (I4 k)) as [A B].
    destruct (key_eqb (v_i v, v_j v, s) k) eqn:K; [apply A; apply (rec_key_iff v k s E); exact K|].
    apply B. intros R. apply (rec_key_iff v k s E) in R. congruence.
  - intros k. rewrite rows_push. destruct (ro_app v_flags k l _ v (I5 k)) as [A B].
    destruct (key_eqb (v_i v, v_j v, s) k) eqn:K; [apply A; apply (rec_key_iff v k s E); exact K|].
    apply B. intros R. apply (rec_key_iff v k s E) in R. congruence.
  - intros k. apply keys_push; auto.
  - intros k. apply keys_push; auto.
Qed.

Lemma takes_inv l : Forall (fun v => exists s, pol_named v s) l -> exists a, takes (Acc [] [] [] []) l = Ok a /\ inv l a.
Proof.
  induction l as [|v l IH] using rev_ind; intros F; [eexists; split; [reflexivity|apply inv_nil]|].
  apply Forall_app in F as [F1 F2]. inversion F2 as [|? ? [s Hs] _]; subst. apply named_iff in Hs.
  destruct (IH F1) as (a & E & I). destruct (inv_step l a v s I Hs) as (a' & E' & I'). exists a'. split; [|exact I'].
  rewrite takes_app, E. cbn [bind takes]. rewrite E'. reflexivity.
Qed.

(* ---- one row for each integration ---- *)
Lemma ig_concat l : concat (integration_groups l) = l.
Proof.
  induction l as [|v l IH]; [reflexivity|]. cbn [integration_groups]. destruct (integration_groups l) as [|[|w g] gs]; cbn [concat app] in *.
  - congruence.
  - congruence.
  - destruct (Qeq_bool _ _); cbn [concat app] in *; congruence.
Qed.
Lemma ig_same l : Forall (fun g => g <> [] /\ forall v w, In v g -> In w g -> (v_time v == v_time w)%Q) (integration_groups l).
Proof.
  induction l as [|v l IH]; [constructor|]. cbn [integration_groups].
  assert (ONE : forall v, [v] <> [] /\ forall a b, In a [v] -> In b [v] -> (v_time a == v_time b)%Q).
  { intros x. split; [discriminate|]. intros a b [<-|[]] [<-|[]]. reflexivity. }
  destruct (integration_groups l) as [|[|w g] gs]; [constructor; [apply ONE|constructor]|constructor; [apply ONE|exact IH]|].
  inversion IH as [|? ? [_ H] IH']; subst. destruct (Qeq_bool (v_time v) (v_time w)) eqn:E.
  - apply Qeq_bool_iff in E. constructor; [|exact IH']. split; [discriminate|].
    assert (K : forall x, In x (w :: g) -> (v_time v == v_time x)%Q).
    { intros x Hx. rewrite E. apply H; [left; reflexivity|exact Hx]. }
    intros a b [<-|Ha] [<-|Hb]; [reflexivity|apply K; exact Hb|symmetry; apply K; exact Ha|apply H; assumption].
  - constructor; [apply ONE|exact IH].
Qed.
Lemma ro_app_inv {A} (f : vis -> A) k a : forall b r, rows_of f k (a ++ b) r -> exists r1 r2, r = r1 ++ r2 /\ rows_of f k a r1 /\ rows_of f k b r2.
Proof.
  induction a as [|v a IH]; intros b r H; [exists [], r; repeat split; auto; constructor|].
  cbn [app] in H. inversion H as [|? ? r' K H'|? ? ? K H']; subst; destruct (IH _ _ H') as (r1 & r2 & -> & A1 & A2).
  - exists (f v :: r1), r2. repeat split; auto. apply ro_take; auto.
  - exists r1, r2. repeat split; auto. apply ro_skip; auto.
Qed.
Lemma ro_none {A} (f : vis -> A) k l r : rows_of f k l r -> (forall v, In v l -> ~ rec_key v k) -> r = [].
Proof.
  induction 1 as [|v l r K H IH|v l r K H IH]; intros N; [reflexivity|exfalso; eapply N; [left; reflexivity|exact K]|].
  apply IH. intros w Hw. apply N. right. exact Hw.
Qed.
Lemma one_each {A} (f : vis -> A) k gs : forall r,
  rows_of f k (concat gs) r ->
  Forall (fun g => exists a v b, g = a ++ v :: b /\ rec_key v k /\ forall w, In w (a ++ b) -> ~ rec_key w k) gs ->
  Forall2 (fun g x => exists v, In v g /\ rec_key v k /\ x = f v) gs r.
Proof.
  induction gs as [|g gs IH]; intros r H F; cbn [concat] in H; [inversion H; constructor|].
  inversion F as [|? ? (a & v & b & -> & K & N) F']; subst. apply ro_app_inv in H as (r1 & r2 & -> & H1 & H2).
  apply ro_app_inv in H1 as (ra & rb & -> & Ha & Hb).
  apply ro_none in Ha; [|intros w Hw; apply N; apply in_or_app; auto]. subst ra. cbn [app].
  inversion Hb as [|? ? r' K' Hb'|? ? ? K' Hb']; subst; [|contradiction].
  apply ro_none in Hb'; [|intros w Hw; apply N; apply in_or_app; auto]. subst r'. cbn [app].
  constructor; [|apply IH; assumption]. exists v. split; [apply in_or_app; right; left; reflexivity|]. auto.
Qed.

Lemma pol_of_name c m : In (c, m) pol_names -> pol_of_str (lit m) = Ok c /\ free ","%char (lit m).
Proof.
  unfold pol_names. cbn [In].
  intros H. repeat (destruct H as [H|H]; [injection H as <- <-; split; [reflexivity|unfold free; cbn; intuition discriminate]|]). contradiction.
Qed.
Lemma pols_text_means polstr pols : pols_text polstr pols -> polmeans polstr pols.
Proof.
  intros [[-> ->]|(names & codes & NE & -> & -> & F)]; [exact I|]. cbn [polmeans].
  rewrite split_join; [|exact NE|].
  - apply map_res_ok. clear NE. induction F as [|n c ns cs (m & I & ->) F IH]; constructor; auto. apply (pol_of_name c m I).
  - clear NE. induction F as [|n c ns cs (m & I & ->) F IH]; constructor; auto. apply (pol_of_name c m I).
Qed.

Lemma map_res_files (fs : str -> option file) names files : Forall2 (fun n f => fs n = Some f) names files ->
  map_res (fun n => match fs n with Some f => Ok f | None => Err end) names = Ok files.
Proof. intros F. apply map_res_ok. induction F as [|n f ns l E F IH]; constructor; auto. rewrite E. reflexivity. Qed.

Lemma map_res_bad {A B} (g : A -> res B) l x : In x l -> g x = Err -> map_res g l = Err.
Proof.
  induction l as [|y l IH]; intros I E; [contradiction|]. cbn [map_res]. destruct I as [->|I].
  - rewrite E. reflexivity.
  - destruct (g y); cbn [bind]; [|reflexivity]. rewrite IH by auto. reflexivity.
Qed.
Lemma read_each_bad a p d q l f : In f l -> f_recs f = [] -> forall x, read_each a p d q x l = Err.
Proof.
  induction l as [|y l IH]; intros I E x; [contradiction|]. cbn [read_each]. destruct I as [->|I].
  - unfold read_file. rewrite open_nil by exact E. reflexivity.
  - destruct (read_file a p d q x y); cbn [bind]; [|reflexivity]. apply IH; auto.
Qed.
Lemma map_res_in {A B} (g : A -> res B) l : forall r x, map_res g l = Ok r -> In x l -> exists y, g x = Ok y /\ In y r.
Proof.
  induction l as [|z l IH]; intros r x H I; [contradiction|]. cbn [map_res] in H.
  destruct (g z) as [y|] eqn:E; [|discriminate]. cbn [bind] in H. destruct (map_res g l) as [r'|] eqn:E'; [|discriminate]. cbn [bind] in H.
  injection H as <-. destruct I as [->|I]; [exists y; split; [exact E|left; reflexivity]|].
  destruct (IH _ _ eq_refl I) as (y' & A1 & A2). exists y'. split; [exact A1|right; exact A2].
Qed.

Lemma aligned {A} (f : vis -> A) k gs rs : forall full : vis -> Prop,
  Forall2 (fun g x => exists v, In v g /\ rec_key v k /\ x = f v) gs rs ->
  Forall (fun g => g <> [] /\ forall v w, In v g -> In w g -> (v_time v == v_time w)%Q) gs ->
  (forall g v, In g gs -> In v g -> full v) ->
  length rs = length (firsts v_time gs) /\
  forall n x, nth_error rs n = Some x -> exists v, full v /\ rec_key v k /\ x = f v /\
       exists t, nth_error (firsts v_time gs) n = Some t /\ (t == v_time v)%Q.
Proof.
  intros full R. revert full. induction R as [|g x gs rs (v & V1 & V2 & V3) R IH]; intros full S INC.
  - split; [reflexivity|]. intros n y H. destruct n; discriminate.
  - inversion S as [|? ? [S1 S2] S']; subst. destruct g as [|w g]; [congruence|].
    destruct (IH full S') as [L H]; [intros g' u G1 G2; apply (INC g'); [right; exact G1|exact G2]|].
    change (firsts v_time ((w :: g) :: gs)) with (v_time w :: firsts v_time gs). split; [cbn [List.length]; congruence|].
    intros [|n] y Hy; cbn [nth_error] in *.
    + injection Hy as <-. exists v. split; [apply (INC (w :: g)); [left; reflexivity|exact V1]|]. split; [exact V2|].
      split; [reflexivity|]. exists (v_time w). split; [reflexivity|]. apply S2; [left; reflexivity|exact V1].
    + apply H. exact Hy.
Qed.
