From Coq Require Import Reals Ascii String Lra.
From Verif Require Import Base CleanModel ParamModel ScriptModel ScriptSpec ScriptProofs CatModel SrcModel SrcSpec SrcProofs.
Local Open Scope R_scope.
Local Notation length := List.length.
Ltac Zify.zify_post_hook ::= idtac.

Lemma comment_iff L : starts (lit "#") L = true <-> comment L.
Proof.
  unfold comment. destruct L as [|c L].
  - split; [discriminate|intros (s & E); discriminate].
  - change (starts (lit "#") (c :: L)) with (ceqb "#"%char c && true). rewrite andb_true_r, ceqb_eq. split; [intros <-; eauto|]. intros (s & [= -> _]). auto.
Qed.
Lemma digit_iff c : is_digit c = true <-> digit_char c.
Proof. unfold is_digit, digit_char, cval. rewrite andb_true_iff, !Z.leb_le. lia. Qed.
Lemma split_notin c s : Forall (fun x => ~ In c x) (split c s).
Proof.
  induction s as [|x s IH]; cbn [split].
  - constructor; auto.
  - destruct (ceqb x c) eqn:E; [constructor; auto|]. assert (N := split_ne c s). destruct (split c s) as [|h t]; [congruence|].
    inversion IH; subst. constructor; auto. intros [->|I]; auto. rewrite ceqb_refl in E. discriminate.
Qed.
Lemma fields_iff L t : fields L t <-> split tab L = t.
Proof.
  unfold fields. change tab_char with tab. split.
  - intros (N & F & ->). apply split_join; auto.
  - intros <-. split; [apply split_ne|]. split; [apply split_notin|]. symmetry. apply join_split.
Qed.
Lemma colons_iff t u : colon_sep t u <-> colons t = u.
Proof.
  unfold colon_sep, colons. split.
  - induction 1 as [|x y t u [(-> & ->)|(N & ->)] F IH]; auto; cbn [map].
    + rewrite ceqb_refl. f_equal; auto.
    + rewrite ceqb_neq by auto. f_equal; auto.
  - intros <-. induction t as [|x t IH]; cbn [map]; constructor; auto. destruct (ceqb x " "%char) eqn:E.
    + left. apply ceqb_eq in E. auto.
    + right. split; auto. intros ->. rewrite ceqb_refl in E. discriminate.
Qed.
(* stripping characters of one kind off both ends *)
Section Strip.
Variable p : ascii -> bool.
Variable P : ascii -> Prop.
Hypothesis pP : forall c, p c = true <-> P c.
Fixpoint skip (s : str) : str := match s with c :: r => if p c then skip r else s | [] => [] end.
Definition strip2 (s : str) := rev (skip (rev (skip s))).
Lemma skip_pre a s : Forall P a -> skip (a ++ s) = skip s.
Proof. induction 1 as [|c a Hc H IH]; auto. cbn. apply pP in Hc. rewrite Hc. auto. Qed.
Lemma skip_head s : (forall c r, s = c :: r -> ~ P c) -> skip s = s.
Proof. destruct s as [|c s]; auto. intros H. cbn. destruct (p c) eqn:E; auto. apply pP in E. destruct (H c s eq_refl E). Qed.
Lemma skip_form s : exists a, Forall P a /\ s = a ++ skip s /\ (forall c r, skip s = c :: r -> ~ P c).
Proof.
  induction s as [|c s (a & A & B & C)]; cbn [skip].
  - exists []. repeat constructor. discriminate.
  - destruct (p c) eqn:E.
    + exists (c :: a). split; [constructor; auto; apply pP; auto|]. split; auto. cbn. congruence.
    + exists []. split; [constructor|]. split; auto. intros c0 r [= <- <-] X. apply pP in X. congruence.
Qed.
Lemma strip2_iff t s : strip2 t = s <->
  (exists a b, Forall P a /\ Forall P b /\ t = a ++ s ++ b) /\ (forall c r, s = c :: r -> ~ P c) /\ (forall c r, s = r ++ [c] -> ~ P c).
Proof.
  unfold strip2. split.
  - intros <-. destruct (skip_form t) as (a & A & B & C). destruct (skip_form (rev (skip t))) as (b & D & E & F).
    set (u := skip (rev (skip t))) in *. assert (T : skip t = rev u ++ rev b) by (rewrite <- rev_app_distr, <- E, rev_involutive; auto).
    split; [|split].
    + exists a, (rev b). split; auto. split; [apply Forall_rev; auto|]. rewrite <- T. auto.
    + intros c r H. apply (C c (r ++ rev b)). rewrite T, H. auto.
    + intros c r H. apply (F c (rev r)). rewrite <- (rev_involutive u), H, rev_app_distr. auto.
  - intros ((a & b & A & B & ->) & H1 & H2). rewrite skip_pre by auto. destruct s as [|c s].
    + cbn [app]. replace (skip b) with (@nil ascii); auto. symmetry. clear - B pP. induction B as [|x b Hx HB IH]; auto. cbn. apply pP in Hx. rewrite Hx. auto.
    + rewrite (skip_head ((c :: s) ++ b)) by (intros c0 r [= <- _]; eauto). rewrite rev_app_distr, skip_pre by (apply Forall_rev; auto).
      rewrite skip_head; [apply rev_involutive|]. intros c0 r H. apply (H2 c0 (rev r)). rewrite <- (rev_involutive (c :: s)), H. auto.
Qed.
End Strip.
Lemma trimmed_iff t s : trimmed t s <-> strip t = s.
Proof.
  unfold trimmed. rewrite <- (strip2_iff is_space blank_char is_space_iff). unfold strip, strip2.
  assert (H : forall x, skip is_space x = skip_spaces x) by (induction x; cbn; auto; destruct (is_space a); auto). rewrite !H. tauto.
Qed.
Lemma chomped_iff L L' : chomped L L' <-> strip_lf L = L'.
Proof.
  unfold chomped. assert (pP : forall c, ceqb c lf = true <-> newline = c) by (intros c; rewrite ceqb_eq; unfold newline, lf; cbn; split; congruence).
  assert (Q := strip2_iff (fun c => ceqb c lf) (eq newline) pP L L'). unfold strip2 in Q.
  assert (H : forall x, skip (fun c => ceqb c lf) x = skip_lf x) by (induction x; cbn; auto; destruct (ceqb a lf); auto). rewrite !H in Q. unfold strip_lf. rewrite Q.
  split; intros (A & B & C); (split; [exact A|]); split; intros c r E; [specialize (B c r E)|specialize (C c r E)|specialize (B c r E)|specialize (C c r E)]; congruence.
Qed.

(* ---- the table loop ---- *)
Section Table.
Variables (short : nat) (front : str -> str) (row : list str -> res (list body)) (rowP : list str -> list body -> Prop).
Variables (pref : str -> str) (pre lead : str -> str -> Prop).
Hypothesis leadP : forall f g, lead f g <-> front f = g.
Hypothesis preP : forall f g, pre f g <-> pref f = g.
Hypothesis rowP_iff : forall t l, (short < length t)%nat -> row t = Ok l <-> rowP t l.
Lemma data_cons L lines : data_lines (L :: lines) = if starts (lit "#") L then data_lines lines else L :: data_lines lines.
Proof. unfold data_lines. cbn [filter]. destruct (starts (lit "#") L); auto. Qed.
Lemma tsv_iff lines : forall l, tsv short front row (map pref (data_lines lines)) = Ok l <-> reads (no_row pre short lead) (table_row pre short lead rowP) lines l.
Proof.
  assert (X : forall (b b' : bool), b = true <-> b' = true -> b = b') by (intros [] [] H; try tauto; symmetry; apply H; auto).
  induction lines as [|L lines IH]; intros l.
  - cbn. split; [intros [= <-]; constructor|]. inversion 1; auto.
  - rewrite data_cons. destruct (starts (lit "#") L) eqn:C.
    + rewrite IH. apply comment_iff in C. split; [intros H; apply rd_skip; auto; left; auto|].
      inversion 1; subst; auto. destruct H2 as [N _]. contradiction.
    + assert (NC : ~ comment L) by (rewrite <- comment_iff, C; discriminate). cbn [map tsv]. set (t := split tab (pref L)).
      assert (F : forall L' t', pre L L' -> fields L' t' -> t' = t) by (intros L' t' P' F'; apply preP in P'; apply fields_iff in F'; subst; auto).
      assert (Ft : pre L (pref L) /\ fields (pref L) t) by (split; [apply preP; auto|apply fields_iff; auto]).
      destruct (length t <=? short)%nat eqn:Sh.
      * apply Nat.leb_le in Sh. rewrite IH. split.
        { intros H. apply rd_skip; auto. right. exists (pref L), t. intuition. }
        { inversion 1; subst; auto. destruct H2 as (_ & L' & t' & P' & F' & Len & _). rewrite (F L' t' P' F') in Len. lia. }
      * apply Nat.leb_gt in Sh. destruct t as [|f r] eqn:Et; [cbn in Sh; lia|]. cbn [col nth_error bind]. rewrite <- Et in *.
        destruct (front f) as [|c s] eqn:Fr; cbn [starts_digit bind].
        { split; [discriminate|]. inversion 1; subst.
          - destruct H2 as [?|(L' & t' & P' & F' & [Len|(f' & r' & c & s & E & Q & _)])]; [contradiction| |].
            + rewrite (F L' t' P' F') in Len. lia.
            + rewrite (F L' t' P' F'), Et in E. injection E as <- <-. apply leadP in Q. congruence.
          - destruct H2 as (_ & L' & t' & P' & F' & _ & (f' & r' & c & s & E & Q & _) & _). rewrite (F L' t' P' F'), Et in E. injection E as <- <-. apply leadP in Q. congruence. }
        destruct (is_digit c) eqn:Dg; cbn [negb].
        { apply digit_iff in Dg. split.
          - destruct (row t) as [b|] eqn:Rw; [|discriminate]. cbn [bind]. destruct (tsv short front row (map pref (data_lines lines))) as [q|] eqn:T; [|discriminate]. cbn [bind]. intros [= <-].
            apply rd_row; [|apply IH; auto]. split; auto. exists (pref L), t. repeat (split; [tauto||lia|]). split.
            + exists f, r, c, s. rewrite Et. split; auto. split; auto. apply leadP; auto.
            + apply rowP_iff; auto.
          - inversion 1; subst.
            + destruct H2 as [?|(L' & t' & P' & F' & [Len|(f' & r' & c' & s' & E & Q & N)])]; [contradiction| |].
              * rewrite (F L' t' P' F') in Len. lia.
              * rewrite (F L' t' P' F'), Et in E. injection E as <- <-. apply leadP in Q. rewrite Fr in Q. injection Q as -> ->. contradiction.
            + destruct H2 as (_ & L' & t' & P' & F' & _ & _ & Rw). rewrite (F L' t' P' F') in Rw. apply rowP_iff in Rw; auto. rewrite Rw. cbn [bind]. apply IH in H4. rewrite H4. reflexivity. }
        { assert (ND : ~ digit_char c) by (rewrite <- digit_iff, Dg; discriminate). rewrite IH. split.
          - intros H. apply rd_skip; auto. right. exists (pref L), t. repeat (split; [tauto|]). right. exists f, r, c, s. split; auto. split; auto. apply leadP; auto.
          - inversion 1; subst; auto. destruct H2 as (_ & L' & t' & P' & F' & _ & (f' & r' & c' & s' & E & Q & N) & _).
            rewrite (F L' t' P' F'), Et in E. injection E as <- <-. apply leadP in Q. rewrite Fr in Q. injection Q as -> ->. contradiction. }
Qed.
End Table.
(* the usual case: nothing is done to the line or to its first field *)
Lemma table_iff (row : list str -> res (list body)) rowP lines l : (forall t l, (4 < length t)%nat -> row t = Ok l <-> rowP t l) ->
  tsv 4 id_str row (data_lines lines) = Ok l <-> table rowP lines l.
Proof.
  intros H. unfold table. rewrite <- (tsv_iff 4 id_str row rowP (fun x => x) eq eq) by (auto; intros; unfold id_str; tauto). rewrite map_id. tauto.
Qed.

Section Rows.
Variable num : str -> option R.
Lemma row_iff lay named unit mf t l : l_unit lay <> 0 ->
  (forall b ra dec, nth_error t (l_ra lay) = Some ra -> nth_error t (l_dec lay) = Some dec -> b_ra b = colons ra -> b_dec b = colons dec ->
    (named t b <-> match l_name lay with Some k => exists n, nth_error t k = Some n /\ strip n = b_name b | None => b_name b = colons ra ++ lit "_" ++ colons dec end)) ->
  unit = / l_unit lay -> mf = l_mfreq lay ->
  row num lay t = Ok l <-> source num (l_ra lay) (l_dec lay) (l_jys lay) named unit mf t l.
Proof.
  intros U N -> ->. unfold row, source, col. split.
  - destruct (nth_error t (l_ra lay)) as [ra|] eqn:Ra; [|discriminate]. cbn [bind]. destruct (nth_error t (l_dec lay)) as [dec|] eqn:De; [|discriminate]. cbn [bind].
    destruct (match l_name lay with Some k => _ | None => _ end) as [nm|] eqn:Nm; [|discriminate]. cbn [bind].
    destruct (nth_error t (l_jys lay)) as [jt|] eqn:Jt; [|discriminate]. cbn [bind]. unfold float. destruct (num jt) as [j|] eqn:Nj; [|discriminate]. cbn [bind]. intros [= <-].
    eexists. split; [reflexivity|]. split; [|split; [|split]].
    + exists ra, dec. cbn [b_ra b_dec]. repeat split; auto; apply colons_iff; auto.
    + apply (N _ ra dec eq_refl eq_refl); cbn [b_ra b_dec b_name]; auto. destruct (l_name lay) as [k|].
      * destruct (nth_error t k) as [n|] eqn:K; [|discriminate]. cbn [bind] in Nm. injection Nm as <-. exists n. auto.
      * congruence.
    + exists jt, j. cbn. auto.
    + reflexivity.
  - intros (b & -> & (ra & dec & Ra & De & A & B) & Nm & (jt & j & Jt & Nj & J & M) & S). apply colons_iff in A. apply colons_iff in B.
    apply (N _ ra dec Ra De (eq_sym A) (eq_sym B)) in Nm. rewrite Ra, De. cbn [bind]. destruct b as [bn br bd bj bs bm]. unfold flat in S. cbn in *. subst.
    destruct (l_name lay) as [k|].
    + destruct Nm as (n & K & <-). rewrite K. cbn [bind]. rewrite Jt. cbn [bind]. unfold float. rewrite Nj. reflexivity.
    + cbn [bind]. rewrite Jt. cbn [bind]. unfold float. rewrite Nj. cbn [bind]. subst bn. reflexivity.
Qed.
Lemma named_column k t b : in_column k t b <-> exists n, nth_error t k = Some n /\ strip n = b_name b.
Proof. unfold in_column. split; intros (n & A & B); exists n; split; auto; apply trimmed_iff; auto. Qed.
Lemma parkes_row_iff t l : (4 < length t)%nat ->
  bind (col t 11) (fun n => bind (col t 9) (fun jt => match num jt with None => Ok []
    | Some j => bind (col t 0) (fun ra => bind (col t 1) (fun dec => Ok [Body (strip n) (colons ra) (colons dec) (Some j) (Law 0) (270 / 100)])) end)) = Ok l
  <-> parkes_row num t l.
Proof.
  intros Len. unfold parkes_row, source, placed, measured, flat, col. split.
  - destruct (nth_error t 11) as [n|] eqn:Nm; [|discriminate]. cbn [bind]. destruct (nth_error t 9) as [jt|] eqn:Jt; [|discriminate]. cbn [bind].
    destruct (num jt) as [j|] eqn:Nj.
    + destruct (nth_error t 0) as [ra|] eqn:Ra; [|discriminate]. cbn [bind]. destruct (nth_error t 1) as [dec|] eqn:De; [|discriminate]. cbn [bind]. intros [= <-].
      left. eexists. split; [reflexivity|]. cbn [b_ra b_dec b_jys b_mfreq b_spec]. split; [exists ra, dec; repeat split; auto; apply colons_iff; auto|].
      split; [apply named_column; exists n; auto|]. split; auto. exists jt, j. unfold jansky. rewrite Rmult_1_r. repeat split; auto; lra.
    + intros [= <-]. right. split; auto. split; [|exists jt; auto]. assert (11 < length t)%nat by (apply nth_error_Some; congruence). lia.
  - intros [(b & -> & (ra & dec & Ra & De & A & B) & Nm & (jt & j & Jt & Nj & J & M) & S)|(-> & L & jt & Jt & Nj)].
    + apply named_column in Nm as (n & K & E). apply colons_iff in A. apply colons_iff in B. rewrite K, Jt, Ra, De. cbn [bind]. rewrite Nj. do 2 f_equal.
      destruct b; cbn in *. subst. unfold jansky. rewrite Rmult_1_r. replace (270 / 100) with (27 / 10) by lra. reflexivity.
    + destruct (nth_error t 11) eqn:E; [|apply nth_error_None in E; lia]. cbn [bind]. rewrite Jt. cbn [bind]. rewrite Nj. auto.
Qed.
Lemma txs_row_iff t l : (4 < length t)%nat ->
  bind (col t 0) (fun ra => bind (col t 1) (fun dec => bind (col t 2) (fun n =>
  bind (col t 7) (fun jt => bind (float num jt) (fun j => bind (col t 10) (fun it =>
    Ok [Body (strip n) (colons ra) (colons dec) (Some j) (Law (match num it with Some i => i | None => 0 end)) (365 / 1000)])))))) = Ok l
  <-> txs_row num t l.
Proof.
  intros Len. unfold txs_row, placed, measured, flat, col, float. split.
  - destruct (nth_error t 0) as [ra|] eqn:Ra; [|discriminate]. cbn [bind]. destruct (nth_error t 1) as [dec|] eqn:De; [|discriminate]. cbn [bind].
    destruct (nth_error t 2) as [n|] eqn:Nm; [|discriminate]. cbn [bind]. destruct (nth_error t 7) as [jt|] eqn:Jt; [|discriminate]. cbn [bind].
    destruct (num jt) as [j|] eqn:Nj; [|discriminate]. cbn [bind]. destruct (nth_error t 10) as [it|] eqn:It; [|discriminate]. cbn [bind]. intros [= <-].
    eexists _, it. split; [reflexivity|]. cbn [b_ra b_dec b_jys b_mfreq b_spec]. split; [exists ra, dec; repeat split; auto; apply colons_iff; auto|].
    split; [apply named_column; exists n; auto|]. split; [exists jt, j; unfold jansky; rewrite Rmult_1_r; repeat split; auto; lra|]. split; auto.
    destruct (num it) as [i|]; [left; eauto|right; auto].
  - intros (b & it & -> & (ra & dec & Ra & De & A & B) & Nm & (jt & j & Jt & Nj & J & M) & It & S). apply named_column in Nm as (n & K & E).
    apply colons_iff in A. apply colons_iff in B. rewrite Ra, De, K, Jt. cbn [bind]. rewrite Nj. cbn [bind]. rewrite It. cbn [bind]. do 2 f_equal.
    destruct b; cbn in *. subst. unfold jansky. rewrite Rmult_1_r. destruct S as [(i & -> & ->)|(-> & ->)]; auto.
Qed.
Lemma paper_row_iff t l : (3 < length t)%nat ->
  bind (col t 1) (fun ra => bind (col t 2) (fun dec => bind (col t 3) (fun n => bind (col t 4) (fun jt => bind (float num jt) (fun j =>
    Ok [Body (strip n) ra dec (Some j) (Law 0) (150 / 1000)]))))) = Ok l
  <-> paper_row num t l.
Proof.
  intros Len. unfold paper_row, measured, flat, col, float. split.
  - destruct (nth_error t 1) as [ra|] eqn:Ra; [|discriminate]. cbn [bind]. destruct (nth_error t 2) as [dec|] eqn:De; [|discriminate]. cbn [bind].
    destruct (nth_error t 3) as [n|] eqn:Nm; [|discriminate]. cbn [bind]. destruct (nth_error t 4) as [jt|] eqn:Jt; [|discriminate]. cbn [bind].
    destruct (num jt) as [j|] eqn:Nj; [|discriminate]. cbn [bind]. intros [= <-].
    eexists. split; [reflexivity|]. cbn [b_ra b_dec b_jys b_mfreq b_spec]. split; auto. split; auto.
    split; [apply named_column; exists n; auto|]. split; auto. exists jt, j; unfold jansky; rewrite Rmult_1_r; repeat split; auto; lra.
  - intros (b & -> & Ra & De & Nm & (jt & j & Jt & Nj & J & M) & S). apply named_column in Nm as (n & K & E).
    rewrite Ra, De, K. cbn [bind]. rewrite Jt. cbn [bind]. rewrite Nj. cbn [bind]. do 2 f_equal.
    destruct b; cbn in *. subst. unfold jansky. rewrite Rmult_1_r. replace (150 / 1000) with (15 / 100) by lra. reflexivity.
Qed.
Lemma limit_iff k t s : nth_error t k = Some s -> starts (lit "<") s = true <-> limit k t.
Proof.
  intros E. unfold limit. rewrite E. destruct s as [|c s]; [split; [discriminate|intros (s & [=])]|]. change (starts (lit "<") (c :: s)) with (ceqb "<"%char c && true). rewrite andb_true_r, ceqb_eq.
  split; [intros <-; eauto|]. intros (s' & [= -> _]). auto.
Qed.
Lemma culgoora_row_iff t l : (4 < length t)%nat ->
  bind (col t 0) (fun ra => bind (col t 1) (fun dec => bind (col t 2) (fun n =>
  bind (col t 7) (fun t160 => bind (col t 9) (fun t080 => bind (col t 10) (fun ti =>
    let j160 := num t160 in let j080 := num t080 in let i := num ti in
    bind (col t 6) (fun f160 => bind (col t 8) (fun f080 =>
    let both := match i, j080, j160 with None, Some _, Some _ => true | _, _, _ => false end in
    let j160 := if both && starts (lit "<") f160 then None else j160 in
    let j080 := if both && starts (lit "<") f080 then None else j080 in
    let b := Body (strip n) (colons ra) (colons dec) in
    Ok [match i with
        | Some i => b j160 (Law i) (160 / 1000)
        | None => match j160 with Some _ => b j160 (Law 0) (160 / 1000) | None => b j080 (Law 0) (80 / 1000) end
        end])))))))) = Ok l
  <-> culgoora_row num t l.
Proof.
  intros Len. unfold culgoora_row, col. split.
  - destruct (nth_error t 0) as [ra|] eqn:Ra; [|discriminate]. cbn [bind]. destruct (nth_error t 1) as [dec|] eqn:De; [|discriminate]. cbn [bind].
    destruct (nth_error t 2) as [n|] eqn:Nm; [|discriminate]. cbn [bind]. destruct (nth_error t 7) as [t160|] eqn:J1; [|discriminate]. cbn [bind].
    destruct (nth_error t 9) as [t80|] eqn:J2; [|discriminate]. cbn [bind]. destruct (nth_error t 10) as [ti|] eqn:Ti; [|discriminate]. cbn [bind].
    destruct (nth_error t 6) as [f1|] eqn:F1; [|discriminate]. cbn [bind]. destruct (nth_error t 8) as [f2|] eqn:F2; [|discriminate]. cbn [bind].
    assert (L1 := limit_iff 6 t f1 F1). assert (L2 := limit_iff 8 t f2 F2).
    generalize dependent (starts (lit "<") f1). generalize dependent (starts (lit "<") f2). intros s2 L2 s1 L1. intros [= <-].
    split; [assert (10 < length t)%nat by (apply nth_error_Some; congruence); lia|].
    eexists _, (num t160), (num t80), (num ti). split; [reflexivity|].
    assert (G : forall b, b_ra b = colons ra -> b_dec b = colons dec -> b_name b = strip n -> placed 0 1 t b /\ in_column 2 t b).
    { intros b A B C. split; [exists ra, dec; repeat split; auto; apply colons_iff; auto|]. apply named_column. exists n. auto. }
    match goal with |- placed _ _ _ ?b /\ _ => assert (GB := G b) end.
    assert (V : forall k s, nth_error t k = Some s -> value num k t (num s)) by (intros k s E; exists s; auto).
    destruct GB as [G1 G2]; try (destruct (num ti); [reflexivity|]; destruct (if _ && _ then None else _); reflexivity).
    split; [exact G1|]. split; [exact G2|]. split; [apply V; auto|]. split; [apply V; auto|]. split; [apply V; auto|]. clear G G1 G2.
    destruct (num ti) as [i|]; [cbn; repeat split; auto; lra|].
    destruct (num t160) as [a|], (num t80) as [b|]; cbn [andb].
    1: assert (Both : Some a <> None /\ Some b <> None) by (split; discriminate); destruct s1; [destruct s2|].
    all: (split; [reflexivity|]); cbn [b_jys b_spec b_mfreq].
    + right. split; [right; split; [auto|tauto]|]. split; [lra|]. right. split; auto. split; auto. tauto.
    + right. split; [right; split; [auto|tauto]|]. split; [lra|]. left. split; auto. intros [_ Q]. apply L2 in Q. discriminate.
    + left. split; [discriminate|]. split; [intros [_ Q]; apply L1 in Q; discriminate|]. split; auto. lra.
    + left. split; [discriminate|]. split; [intros [[_ Q] _]; congruence|]. split; auto. lra.
    + right. split; [left; auto|]. split; [lra|]. left. split; auto. intros [[Q _] _]. congruence.
    + right. split; [left; auto|]. split; [lra|]. left. split; auto. intros [[Q _] _]. congruence.
  - intros (Ln & b & s160 & s80 & i & -> & (ra & dec & Ra & De & A & B) & Nm & (t160 & T1 & V1) & (t80 & T2 & V2) & (ti & T3 & V3) & H).
    apply named_column in Nm as (n & K & E). apply colons_iff in A. apply colons_iff in B.
    destruct (nth_error t 6) as [f1|] eqn:F1; [|apply nth_error_None in F1; lia]. destruct (nth_error t 8) as [f2|] eqn:F2; [|apply nth_error_None in F2; lia].
    rewrite Ra, De, K, T1, T2, T3. cbn [bind]. rewrite V1, V2, V3. do 2 f_equal. replace (160 / 1000) with (16 / 100) by lra. replace (80 / 1000) with (8 / 100) by lra.
    assert (L1 := limit_iff 6 t f1 F1). assert (L2 := limit_iff 8 t f2 F2). destruct b as [bn br bd bj bs bm]. cbn [b_ra b_dec b_name b_jys b_spec b_mfreq] in *. subst.
    destruct (num ti) as [i|].
    + destruct H as (-> & -> & ->). reflexivity.
    + destruct H as (S & H). unfold flat in S. cbn in S. subst bs.
      assert (D1 : starts (lit "<") f1 = true \/ starts (lit "<") f1 = false) by (destruct (starts (lit "<") f1); auto).
      assert (D2 : starts (lit "<") f2 = true \/ starts (lit "<") f2 = false) by (destruct (starts (lit "<") f2); auto).
      destruct (num t160) as [a|] eqn:Ea, (num t80) as [c|] eqn:Ec; cbn [andb].
      * assert (Both : Some a <> None /\ Some c <> None) by (split; discriminate).
        destruct H as [(_ & N & -> & ->)|(Q & -> & W)].
        { destruct D1 as [D1|D1]; [exfalso; apply N; split; auto; apply L1; auto|]. rewrite D1. reflexivity. }
        { destruct Q as [Q|[_ Q]]; [discriminate|]. apply L1 in Q. rewrite Q. destruct W as [(N & ->)|((_ & N) & ->)].
          - destruct D2 as [D2|D2]; [exfalso; apply N; split; auto; apply L2; auto|]. rewrite D2. reflexivity.
          - apply L2 in N. rewrite N. reflexivity. }
      * destruct H as [(_ & N & -> & ->)|(Q & -> & W)]; [reflexivity|]. destruct Q as [Q|[[_ Q] _]]; congruence.
      * destruct H as [(N & _)|(Q & -> & W)]; [congruence|]. destruct W as [(_ & ->)|(([X _] & _) & _)]; [reflexivity|congruence].
      * destruct H as [(N & _)|(Q & -> & W)]; [congruence|]. destruct W as [(_ & ->)|(([X _] & _) & _)]; [reflexivity|congruence].
Qed.
End Rows.

(* ---- words ---- *)
Lemma words_blank a s : blank a -> words (a ++ s) = words s.
Proof. induction 1 as [|c a Hc H IH]; auto. cbn [app]. unfold words. cbn [pieces]. apply is_space_iff in Hc. rewrite Hc. cbn [filter]. exact IH. Qed.
Lemma pieces_word w s : Forall (fun c => ~ blank_char c) w -> (forall c r, s = c :: r -> blank_char c) ->
  pieces (w ++ s) = w :: match s with [] => [] | _ :: r => pieces r end.
Proof.
  intros W S. induction W as [|c w Hc H IH].
  - cbn [app]. destruct s as [|c s]; auto. cbn. assert (B := S c s eq_refl). apply is_space_iff in B. rewrite B. auto.
  - cbn [app pieces]. destruct (is_space c) eqn:E; [apply is_space_iff in E; contradiction|]. rewrite IH. auto.
Qed.
Lemma words_of_words s ws : words_of s ws -> words s = ws.
Proof.
  induction 1 as [a B|a w s ws A N W S H IH].
  - rewrite <- (app_nil_r a), words_blank by auto. auto.
  - rewrite words_blank by auto. unfold words. rewrite pieces_word by auto. cbn [filter]. destruct w as [|c w]; [congruence|]. f_equal.
    rewrite <- IH. destruct s as [|x s]; auto. assert (B := S x s eq_refl). change (words s = words (x :: s)). change (x :: s) with ([x] ++ s). rewrite words_blank; auto. constructor; auto.
Qed.
Lemma words_words_of s : words_of s (words s).
Proof.
  assert (H : forall n s, (length s <= n)%nat -> words_of s (words s)); [|eauto].
  clear s. induction n as [|n IH]; intros s L.
  - destruct s; [|cbn in L; lia]. apply wo_nil. constructor.
  - destruct (skip_form is_space blank_char is_space_iff s) as (a & A & E & Hd). set (u0 := skip is_space s) in *.
    rewrite E. rewrite words_blank by auto. destruct u0 as [|c u] eqn:Eu.
    + rewrite app_nil_r. apply wo_nil. auto.
    + assert (NB := Hd c u eq_refl).
      assert (Sp : exists w v, c :: u = w ++ v /\ w <> [] /\ Forall (fun c => ~ blank_char c) w /\ (forall x r, v = x :: r -> blank_char x) /\ (length v < length (c :: u))%nat).
      { clear - NB. revert c NB. induction u as [|d u IH]; intros c NB.
        - exists [c], []. repeat split; auto; try discriminate. 
        - destruct (is_space d) eqn:D.
          + apply is_space_iff in D. exists [c], (d :: u). repeat split; auto; try discriminate. intros x r [= <- _]. auto.
          + assert (ND : ~ blank_char d) by (rewrite <- is_space_iff, D; discriminate). destruct (IH d ND) as (w & v & W1 & W2 & W3 & W4 & W5).
            exists (c :: w), v. rewrite W1. repeat split; auto; try discriminate. rewrite <- W1. cbn [length] in *. lia. }
      destruct Sp as (w & v & W1 & W2 & W3 & W4 & W5). rewrite W1.
      assert (Q : words (w ++ v) = w :: words v).
      { unfold words at 1. rewrite pieces_word by auto. cbn [filter]. destruct w; [congruence|]. f_equal. destruct v as [|x v]; auto.
        assert (B := W4 x v eq_refl). change (words v = words (x :: v)). change (x :: v) with ([x] ++ v). rewrite words_blank; auto. constructor; auto. }
      rewrite Q. apply wo_cons; auto. apply IH. rewrite E, app_length in L. cbn [length] in *. lia.
Qed.
Lemma words_iff s ws : words_of s ws <-> words s = ws.
Proof. split; [apply words_of_words|]. intros <-. apply words_words_of. Qed.
