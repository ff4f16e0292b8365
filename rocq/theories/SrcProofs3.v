From Coq Require Import Reals Ascii String Lra.
From Verif Require Import Base CleanModel ParamModel ParamProofs ScriptModel ScriptSpec ScriptProofs CatModel CatProofs SrcModel SrcSpec SrcProofs SrcProofs2.
Local Open Scope R_scope.
Local Notation length := List.length.
Ltac Zify.zify_post_hook ::= idtac.

Lemma chars_from n : forall L a, flat_map (fun i => match nth_error L i with Some c => [c] | None => [] end) (seq a n) = firstn n (skipn a L : str).
Proof.
  induction n as [|n IH]; intros L a; [auto|]. cbn [seq flat_map]. rewrite IH. revert L. induction a as [|a IHa]; intros L.
  - destruct L; [destruct n; auto|auto].
  - destruct L as [|x L]; cbn [nth_error skipn]; [destruct n; auto|]. apply IHa.
Qed.
Lemma chars_cut L a b : chars L a b = cut L a b.
Proof. apply chars_from. Qed.
Lemma cut_cut (L : str) a b c : cut (cut L a b) 0 c = firstn (Nat.min c (b - a)) (skipn a L).
Proof. unfold cut. rewrite Nat.sub_0_r. cbn [skipn]. apply firstn_firstn. Qed.
Lemma skip_cut (L : str) a b c : skipn c (cut L a b) = firstn (b - a - c) (skipn (a + c) L).
Proof.
  unfold cut. rewrite skipn_firstn_comm. f_equal. revert L. induction a as [|a IH]; intros L; auto. destruct L; [destruct c; auto|]. apply IH.
Qed.
Lemma str_inj a b : string_of_list_ascii a = string_of_list_ascii b -> a = b.
Proof. intros E. apply (f_equal list_ascii_of_string) in E. rewrite !list_ascii_of_string_of_list_ascii in E. auto. Qed.
Definition sel (k : string) (lines : list str) : list str := filter (fun L => is_J L && String.eqb k (key L)) lines.
Lemma is_J_head L : is_J L = match L with c :: _ => Ascii.eqb c "J"%char | [] => false end.
Proof. destruct L as [|c L]; auto. change (is_J (c :: L)) with (ceqb "J"%char c && true). rewrite andb_true_r. unfold ceqb. apply Ascii.eqb_sym. Qed.
Lemma of_name_sel k lines : of_name k lines = sel (string_of_list_ascii k) lines.
Proof.
  unfold of_name, sel. apply filter_ext. intros L. rewrite is_J_head. f_equal. unfold key. rewrite chars_cut. destruct (list_eq_dec ascii_dec (cut L 0 9) k) as [<-|N].
  - symmetry. apply String.eqb_refl.
  - symmetry. apply String.eqb_neq. intros E. apply N. symmetry. apply str_inj. auto.
Qed.
Lemma sel_cons k L r : sel k (L :: r) = if is_J L && String.eqb k (key L) then L :: sel k r else sel k r.
Proof. reflexivity. Qed.
Lemma sel_in k lines L : In L (sel k lines) <-> In L lines /\ is_J L = true /\ key L = k.
Proof. unfold sel. rewrite filter_In, andb_true_iff, String.eqb_eq. intuition. Qed.
Section Helm.
Variable num : str -> option R.
Definition pos_of (L : str) : str := cut L 35 57.
Definition getd (k : string) (d : dict (list (R * R * R))) := match lookup k d with Some l => l | None => [] end.
Lemma pos_spec lines : forall srcs m srcs' m', pos_lines num lines srcs m = Ok (srcs', m') ->
  (NoDup (map fst srcs) -> NoDup (map fst srcs')) /\
  (forall k, lookup k srcs' = match rev (sel k lines) with L :: _ => Some (pos_of L) | [] => lookup k srcs end) /\
  (forall k, exists new, Forall2 (measures num) (sel k lines) new /\ getd k (m_data m') = getd k (m_data m) ++ new) /\
  m_rms m' = m_rms m /\
  (forall k, lookup k (m_ncomp m') = match lookup k (m_ncomp m) with Some n => Some n | None =>
     match sel k lines with L :: _ => match nth_error L 33 with Some c => match py_int [c] with Ok n => Some n | Err => None end | None => None end | [] => None end end).
Proof.
  induction lines as [|L lines IH]; intros srcs m srcs' m' E; cbn [pos_lines] in E.
  - injection E as <- <-. split; auto. split; auto. split; [intros k; exists []; split; [constructor|rewrite app_nil_r; auto]|]. split; auto. intros k. destruct (lookup k (m_ncomp m)); auto.
  - destruct (is_J L) eqn:J; cbn [negb] in E.
    2:{ apply IH in E. assert (S : forall k, sel k (L :: lines) = sel k lines) by (intros k; rewrite sel_cons, J; auto). destruct E as (A & B & C & D & F). repeat split; auto; intros k; rewrite S; auto. }
    destruct (match lookup (key L) (m_ncomp m) with Some _ => _ | None => _ end) as [nc|] eqn:N; [|discriminate]. cbn [bind] in E. unfold float in E.
    destruct (num (cut L 58 64)) as [f|] eqn:N1; [|discriminate]. cbn [bind] in E. destruct (num (cut L 65 73)) as [s|] eqn:N2; [|discriminate]. cbn [bind] in E.
    destruct (num (cut L 74 81)) as [e|] eqn:N3; [|discriminate]. cbn [bind] in E. apply IH in E. cbn [m_data m_rms m_ncomp] in E. destruct E as (A & B & C & D & F).
    assert (Me : measures num L (f / 1000, s, e)) by (exists f, s, e; rewrite !chars_cut; auto).
    split; [intros; apply A, dset_nodup'; auto|]. split; [|split; [|split; auto]].
    + intros k. rewrite B, sel_cons, J, lookup_dset. cbn [andb]. destruct (String.eqb_spec k (key L)) as [->|Nk]; [|auto].
      cbn [rev]. destruct (rev (sel (key L) lines)); auto.
    + intros k. destruct (C k) as (new & F2 & G). rewrite sel_cons, J. cbn [andb]. unfold getd in G at 2. rewrite lookup_dset in G. destruct (String.eqb_spec k (key L)) as [->|Nk].
      * exists ((f / 1000, s, e) :: new). split; [constructor; auto|]. rewrite G. fold (getd (key L) (m_data m)). rewrite <- app_assoc. auto.
      * exists new. split; auto.
    + intros k. rewrite F, sel_cons, J. cbn [andb]. destruct (lookup (key L) (m_ncomp m)) as [n0|] eqn:K.
      * injection N as <-. destruct (String.eqb_spec k (key L)) as [->|Nk]; auto. rewrite K. auto.
      * destruct (nth_error L 33) as [c|] eqn:C33; [|discriminate]. destruct (py_int [c]) as [n|] eqn:Pi; [|discriminate]. cbn [bind] in N. injection N as <-.
        rewrite lookup_dset. destruct (String.eqb_spec k (key L)) as [->|Nk]; auto. rewrite K, C33, Pi. auto.
Qed.
Lemma pos_ok lines : forall srcs m,
  (forall L, In L lines -> is_J L = true -> (exists v, measures num L v) /\ exists c, nth_error L 33 = Some c /\ is_digit c = true) ->
  exists r, pos_lines num lines srcs m = Ok r.
Proof.
  induction lines as [|L lines IH]; intros srcs m H; cbn [pos_lines]; eauto.
  destruct (is_J L) eqn:J; cbn [negb]; [|apply IH; intros; apply H; auto; right; auto].
  destruct (H L (or_introl eq_refl) J) as ((v & f & s & e & N1 & N2 & N3 & _) & c & C & D). rewrite !chars_cut in *.
  unfold float. rewrite N1, N2, N3. cbn [bind]. rewrite C.
  assert (P : exists n, py_int [c] = Ok n).
  { unfold py_int. assert (SP : is_space c = false). { unfold is_digit, is_space in *. apply andb_true_iff in D as [D1 D2]. apply Z.leb_le in D1. apply Z.leb_le in D2. destruct (Z.leb_spec 9 (cval c)), (Z.leb_spec (cval c) 13), (Z.leb_spec 28 (cval c)), (Z.leb_spec (cval c) 32); cbn; auto; lia. }
    assert (ST : strip [c] = [c]) by (unfold strip; cbn [skip_spaces]; rewrite SP; cbn [rev app skip_spaces]; rewrite SP; auto). rewrite ST.
    destruct (ceqb c "-"%char) eqn:M; [apply ceqb_eq in M; subst; discriminate|]. destruct (ceqb c "+"%char) eqn:M2; [apply ceqb_eq in M2; subst; discriminate|].
    cbn [nat_lit horner]. rewrite D. eauto. }
  destruct P as (n & P). rewrite P. cbn [bind]. destruct (lookup (key L) (m_ncomp m)); cbn [bind]; apply IH; intros; apply H; auto; right; auto.
Qed.
Lemma numbers_iff s xs : numbers num s xs <-> map_res (float num) (words s) = Ok xs.
Proof.
  unfold numbers. rewrite map_res_ok. split.
  - intros (ws & W & F). apply words_iff in W. subst ws. clear - F. induction F; constructor; auto. unfold float. rewrite H. auto.
  - intros F. exists (words s). split; [apply words_iff; auto|]. clear - F. induction F; constructor; auto. unfold float in H. destruct (num x); [congruence|discriminate].
Qed.
Definition spec_of (L : str) (xs : list R) : Prop := numbers num (chars L 13 62) xs.
Lemma fit_spec lines : forall srcs m srcs' m', fit_lines num lines srcs m = Ok (srcs', m') ->
  map fst srcs' = map fst srcs /\
  (forall L, In L lines -> is_J L = true -> In (key L) (map fst srcs)) /\
  (forall k, match lookup k srcs with
     | None => lookup k srcs' = None
     | Some (p, fits) => exists new, Forall2 spec_of (sel k lines) new /\ lookup k srcs' = Some (p, fits ++ new)
     end) /\
  m_data m' = m_data m /\ m_ncomp m' = m_ncomp m /\
  (forall k, lookup k (m_rms m') = match rev (sel k lines) with L :: _ => Some (match num (cut L 63 70) with Some x => x | None => -1 end) | [] => lookup k (m_rms m) end).
Proof.
  induction lines as [|L lines IH]; intros srcs m srcs' m' E; cbn [fit_lines] in E.
  - injection E as <- <-. split; auto. split; [intros L []|]. split; [|auto]. intros k. destruct (lookup k srcs) as [(p & fits)|]; auto. exists []. split; [constructor|]. rewrite app_nil_r. auto.
  - destruct (is_J L) eqn:J; cbn [negb] in E.
    2:{ apply IH in E. assert (S : forall k, sel k (L :: lines) = sel k lines) by (intros k; rewrite sel_cons, J; auto). destruct E as (A & B & C & D & F & G). split; auto.
        split; [intros L' [<-|I] J'; [congruence|auto]|]. split; [intros k; rewrite S; apply C|]. split; auto. split; auto. intros k. rewrite S. auto. }
    destruct (map_res (float num) (words (cut L 13 62))) as [spec|] eqn:Sp; [|discriminate]. cbn [bind] in E.
    destruct (lookup (key L) srcs) as [(p & fits)|] eqn:K; [|discriminate]. apply IH in E. cbn [m_data m_rms m_ncomp] in E. destruct E as (A & B & C & D & F & G).
    assert (IK : In (key L) (map fst srcs)) by (apply lookup_in_fst; congruence).
    assert (KS : map fst (dset (key L) (p, fits ++ [spec]) srcs) = map fst srcs) by (apply dset_keys; auto). rewrite KS in *.
    split; auto. split; [intros L' [<-|I] J'; auto|]. split; [|split; auto; split; auto].
    + intros k. specialize (C k). rewrite lookup_dset in C. rewrite sel_cons, J. cbn [andb]. destruct (String.eqb_spec k (key L)) as [Ek|Nk].
      * subst k. rewrite K. destruct C as (new & F2 & C). exists (spec :: new). split; [constructor; auto; unfold spec_of; rewrite chars_cut; apply numbers_iff; auto|]. rewrite <- app_assoc in C. auto.
      * exact C.
    + intros k. rewrite G, sel_cons, J. cbn [andb]. rewrite lookup_dset. destruct (String.eqb_spec k (key L)) as [->|Nk]; auto.
      cbn [rev]. destruct (rev (sel (key L) lines)); auto.
Qed.
Lemma fit_ok lines : forall srcs m,
  (forall L, In L lines -> is_J L = true -> In (key L) (map fst srcs) /\ exists xs, spec_of L xs) ->
  exists r, fit_lines num lines srcs m = Ok r.
Proof.
  induction lines as [|L lines IH]; intros srcs m H; cbn [fit_lines]; eauto.
  destruct (is_J L) eqn:J; cbn [negb]; [|apply IH; intros; apply H; auto; right; auto].
  destruct (H L (or_introl eq_refl) J) as (K & xs & Sp). unfold spec_of in Sp. rewrite chars_cut in Sp. apply numbers_iff in Sp. rewrite Sp. cbn [bind].
  pose proof K as K'. apply lookup_in_fst in K. destruct (lookup (key L) srcs) as [(p & fits)|]; [|congruence]. apply IH. intros L' I' J'. destruct (H L' (or_intror I') J') as (K2 & Q). split; auto.
  rewrite dset_keys; auto.
Qed.
Lemma helm_src_spec k p xs b : helm_src (k, (p, [xs])) = Ok b ->
  b_name b = list_ascii_of_string k /\ b_ra b = colons (strip (cut p 0 10)) /\ b_dec b = colons (strip (skipn 11 p)) /\ spectral xs b /\ b_mfreq b = 74 / 1000.
Proof.
  cbn [helm_src]. destruct xs as [|a [|i [|e [|A [|B more]]]]]; try discriminate; cbn [helm_src].
  1-4: intros [= <-]; repeat split; auto; (constructor; auto; cbn; lia) || (constructor; auto).
  destruct (Req_EM_T A (-99)) as [->|N]; intros [= <-]; repeat split; auto.
  - apply sp_nofit; auto.
  - eapply sp_fit; [auto|apply exp_pos| |reflexivity|reflexivity]. unfold Rpower. rewrite ln_exp. auto.
Qed.
Lemma helm_src_ok k p xs : xs <> [] -> exists b, helm_src (k, (p, [xs])) = Ok b.
Proof. intros N. destruct xs as [|a [|i [|e [|A [|B more]]]]]; try congruence; cbn; eauto. destruct (Req_EM_T A (-99)); eauto. Qed.
Lemma lookup_pair (srcs : dict str) k : lookup k (map (fun '(k, p) => (k, (p, @nil (list R)))) srcs) = match lookup k srcs with Some p => Some (p, []) | None => None end.
Proof. induction srcs as [|(k', p) srcs IH]; auto. cbn. destruct (String.eqb k k'); auto. Qed.
Lemma fst_pair (srcs : dict str) : map fst (map (fun '(k, p) => (k, (p, @nil (list R)))) srcs) = map fst srcs.
Proof. rewrite map_map. apply map_ext. intros (k, p). auto. Qed.
Lemma in_lookup {A} k (v : A) d : NoDup (map fst d) -> In (k, v) d -> lookup k d = Some v.
Proof.
  induction d as [|(k', v') d IH]; intros N I; [contradiction|]. cbn in *. inversion N; subst. destruct I as [[= -> ->]|I]; [rewrite String.eqb_refl; auto|].
  destruct (String.eqb_spec k k') as [->|]; [|auto]. exfalso. apply H1. apply in_map_iff. exists (k', v). auto.
Qed.
Lemma helm_keys m pos fit l m' : helm num m pos fit = Ok (l, m') -> exists srcs m1 srcs2,
  pos_lines num pos [] m = Ok (srcs, m1) /\ fit_lines num fit (map (fun '(k, p) => (k, (p, []))) srcs) m1 = Ok (srcs2, m') /\
  Forall2 (fun e b => helm_src e = Ok b) srcs2 l.
Proof.
  unfold helm. destruct (pos_lines num pos [] m) as [(srcs, m1)|] eqn:P; [|discriminate]. cbn [bind].
  destruct (fit_lines num fit _ m1) as [(srcs2, m2)|] eqn:F; [|discriminate]. cbn [bind]. destruct (map_res helm_src srcs2) as [l'|] eqn:M; [|discriminate]. cbn [bind].
  intros [= <- <-]. exists srcs, m1, srcs2. repeat split; auto. apply map_res_ok; auto.
Qed.
End Helm.
