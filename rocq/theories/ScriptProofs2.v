From Coq Require Import QArith Ascii String.
From Verif Require Import Base BaselineModel BaselineProofs SelModel ScriptModel ScriptSpec ScriptProofs.
Open Scope Z_scope.
Ltac Zify.zify_post_hook ::= idtac.

Definition stop (r : str) : Prop := match r with [] => True | c :: _ => c = "_"%char \/ c = ","%char end.

Lemma span_app d r : forallb is_digit d = true -> match r with [] => True | c :: _ => is_digit c = false end ->
  span_digits (d ++ r) = (d, r).
Proof.
  induction d as [|c d IH]; intros F S.
  - simpl. destruct r as [|c r]; auto. cbn [span_digits]. rewrite S. auto.
  - cbn [forallb] in F. apply andb_true_iff in F as [F1 F2]. cbn [app span_digits]. rewrite F1, IH by auto. auto.
Qed.

Lemma ant_text_inv s a : ant_text s a -> exists d, digits d (a_num a) /\ 0 <= a_num a /\
  s = (if a_neg a then ["-"%char] else []) ++ d ++ (match a_pol a with Some c => [c] | None => [] end) /\
  (forall c, a_pol a = Some c -> c = "x"%char \/ c = "y"%char).
Proof.
  intros H. destruct H as [ng d n p D P]. exists d. simpl. split; auto. split; auto.
  apply (digits_horner d n D).
Qed.

Lemma xy_cases c : c = "x"%char \/ c = "y"%char -> is_xy c = true /\ is_digit c = false.
Proof. intros [->| ->]; split; reflexivity. Qed.

Lemma re_single_ant s a r : ant_text s a -> stop r -> re_single (s ++ r) = Some (s, r).
Proof.
  intros H S. destruct (ant_text_inv s a H) as (d & D & _ & E & P).
  destruct (digits_horner d _ D) as (_ & N & F & _).
  assert (G : forall m, (let '(d0, s2) := span_digits (d ++ (match a_pol a with Some c => [c] | None => [] end) ++ r) in
     match d0 with [] => None | _ => match s2 with c :: s3 => if is_xy c then Some (m ++ d0 ++ [c], s3) else Some (m ++ d0, s2) | [] => Some (m ++ d0, []) end end)
     = Some (m ++ d ++ (match a_pol a with Some c => [c] | None => [] end), r)).
  { intros m. rewrite span_app; auto.
    - destruct d as [|x d]; [congruence|]. destruct (a_pol a) as [p|].
      + cbn [app]. destruct (xy_cases p (P p eq_refl)) as [X _]. rewrite X. auto.
      + cbn [app]. rewrite app_nil_r. destruct r as [|c r]; auto. simpl in S.
        destruct S as [->| ->]; reflexivity.
    - destruct (a_pol a) as [p|]; cbn [app].
      + apply xy_cases. auto.
      + destruct r as [|c r]; auto. simpl in S. destruct S as [->| ->]; reflexivity. }
  unfold re_single. rewrite E. destruct (a_neg a).
  - cbn [app]. change (ceqb "-"%char "-"%char) with true. cbv iota beta.
    rewrite <- app_assoc. exact (G ["-"%char]).
  - cbn [app]. specialize (G []). rewrite <- app_assoc. destruct d as [|x d]; [congruence|]. cbn [app].
    rewrite digit_not; [exact G | | auto]. cbn [forallb] in F. apply andb_true_iff in F. tauto.
Qed.

(* characters of an antenna *)
Lemma ant_chars s a c : ant_text s a -> In c s -> is_digit c = true \/ c = "-"%char \/ c = "x"%char \/ c = "y"%char.
Proof.
  intros H I. destruct (ant_text_inv s a H) as (d & D & _ & E & P). subst s.
  apply in_app_or in I as [I|I].
  - destruct (a_neg a); [|destruct I]. destruct I as [<-|[]]. auto.
  - apply in_app_or in I as [I|I]; [left; eapply digits_in; eauto|].
    destruct (a_pol a) as [p|]; [|destruct I]. destruct I as [<-|[]]. destruct (P p eq_refl); auto.
Qed.
Lemma ant_free s a c : ant_text s a -> is_digit c = false -> c <> "-"%char -> c <> "x"%char -> c <> "y"%char -> free c s.
Proof. intros H A B C D I. destruct (ant_chars s a c H I) as [K|[K|[K|K]]]; congruence. Qed.
Lemma ant_head s a : ant_text s a -> exists c r, s = c :: r /\ (is_digit c = true \/ c = "-"%char).
Proof.
  intros H. destruct (ant_text_inv s a H) as (d & D & _ & E & P). destruct (digits_horner d _ D) as (_ & N & F & _).
  destruct d as [|x d]; [congruence|]. cbn [forallb] in F. apply andb_true_iff in F as [F _].
  destruct (a_neg a); subst s; cbn [app]; eauto.
Qed.

(* the automaton accepts comma lists of antennas *)
Lemma urun_digits d : forallb is_digit d = true -> d <> [] -> forall u t, urun u (d ++ t) = urun UDigit t.
Proof.
  induction d as [|c d IH]; intros F N u t; [congruence|]. cbn [forallb] in F. apply andb_true_iff in F as [F1 F2].
  cbn [app urun]. unfold unext. rewrite F1. destruct d as [|x d]; auto. apply IH; auto. discriminate.
Qed.
Lemma urun_ant s a : ant_text s a -> forall u t, u = UStart \/ u = UComma ->
  urun u (s ++ t) = urun (match a_pol a with Some _ => UPol | None => UDigit end) t.
Proof.
  intros H u t U. destruct (ant_text_inv s a H) as (d & D & _ & E & P). destruct (digits_horner d _ D) as (_ & N & F & _).
  assert (T : forall u, urun u (d ++ (match a_pol a with Some c => [c] | None => [] end) ++ t) =
     urun (match a_pol a with Some _ => UPol | None => UDigit end) t).
  { intros w. rewrite urun_digits by auto. destruct (a_pol a) as [p|]; auto.
    destruct (P p eq_refl) as [->| ->]; reflexivity. }
  subst s. rewrite <- !app_assoc. destruct (a_neg a).
  - cbn [app urun]. destruct U as [->| ->]; cbn [unext]; apply T.
  - cbn [app]. apply T.
Qed.
Lemma urun_join l as_ : Forall2 ant_text l as_ -> l <> [] -> forall u, u = UStart \/ u = UComma ->
  urun u (join ","%char l) = true.
Proof.
  induction 1 as [|s a l as_ H F IH]; intros N u U; [congruence|].
  destruct l as [|t l].
  - cbn [join]. rewrite <- (app_nil_r s). rewrite (urun_ant s a H) by auto. destruct (a_pol a); reflexivity.
  - change (join ","%char (s :: t :: l)) with (s ++ ","%char :: join ","%char (t :: l)).
    rewrite (urun_ant s a H) by auto.
    assert (E : forall w, w = UPol \/ w = UDigit -> urun w (","%char :: join ","%char (t :: l)) = urun UComma (join ","%char (t :: l))).
    { intros w [->| ->]; reflexivity. }
    rewrite E by (destruct (a_pol a); auto). apply IH; auto. discriminate.
Qed.

Lemma until_app ins r : free ")"%char ins -> until_paren (ins ++ ")"%char :: r) = Some (ins, r).
Proof.
  induction ins as [|c ins IH]; intros F; cbn [app until_paren].
  - rewrite ceqb_refl. auto.
  - rewrite ceqb_neq by (intros ->; apply F; left; auto).
    rewrite IH by (intros K; apply F; right; auto). auto.
Qed.

(* a group: what re_ant returns and the operands made of it *)
Definition operands (t : str) (ins : option str) : list operand :=
  match ins with None => [OStr t] | Some l => map OStr (split ","%char l) end.

Lemma re_ant_group s as_ r : group_text s as_ -> stop r ->
  exists ins texts, re_ant (s ++ r) = Some (s, ins, r) /\ operands s ins = map OStr texts /\ Forall2 ant_text texts as_.
Proof.
  intros H S. destruct H as [s a H | l as_ N F].
  - exists None, [s]. split; [|split; auto]. unfold re_ant.
    destruct (ant_head s a H) as (c & t & E & C).
    assert (Q : ceqb c "("%char = false) by (destruct C as [C| ->]; [apply digit_not; auto | reflexivity]).
    assert (R := re_single_ant s a r H S). rewrite E in *. cbn [app] in *. rewrite Q. rewrite R. auto.
  - assert (FR : forall c, is_digit c = false -> c <> "-"%char -> c <> "x"%char -> c <> "y"%char -> Forall (free c) l).
    { intros c A B C D. clear -F A B C D. induction F; constructor; auto. eapply ant_free; eauto. }
    exists (Some (join ","%char l)), l. split; [|split; auto].
    + cbn [app]. rewrite <- app_assoc. cbn [app]. unfold re_ant. change (ceqb "(" "(") with true. cbv iota.
      rewrite until_app.
      2:{ apply join_free; [discriminate|]. apply FR; try reflexivity; discriminate. }
      rewrite (urun_join l as_ F N UStart) by auto. reflexivity.
    + cbn [operands]. rewrite split_join; auto. apply FR; try reflexivity; discriminate.
Qed.

(* ---- operands to entries ---- *)
Lemma py_int_digits d n : digits d n -> py_int d = Ok n.
Proof.
  intros D. assert (E := nu_pos [] d [] n (Forall_nil _) (Forall_nil _) D). cbn [app] in E. rewrite app_nil_r in E.
  apply py_int_numeral; auto.
Qed.

Lemma view_ant d n p : digits d n -> (forall c, p = Some c -> c = "x"%char \/ c = "y"%char) ->
  view_of (OStr (d ++ match p with Some c => [c] | None => [] end)) = Ok (match p with Some c => VPol n c | None => VNum n end).
Proof.
  intros D P. destruct (digits_horner d n D) as (_ & N & F & _). unfold view_of. destruct p as [c|].
  - destruct (xy_cases c (P c eq_refl)) as [X Y].
    assert (A : is_digits (d ++ [c]) = false).
    { unfold is_digits. destruct d as [|a d]; [congruence|]. cbn [app]. change (a :: d ++ [c]) with ((a :: d) ++ [c]). rewrite forallb_app.
      cbn [forallb]. rewrite Y. rewrite andb_false_r. auto. }
    rewrite A.
    assert (B : re_digits_pol (d ++ [c]) = Some (d, c)).
    { destruct d as [|x d]; [congruence|]. cbn [app re_digits_pol].
      change (x :: d ++ [c]) with ((x :: d) ++ [c]). rewrite span_app by auto. rewrite X. auto. }
    rewrite B. rewrite (py_int_digits d n D). auto.
  - rewrite app_nil_r. assert (A : is_digits d = true) by (unfold is_digits; destruct d; [congruence|auto]).
    rewrite A, (py_int_digits d n D). auto.
Qed.

(* the operand stands for the antenna *)
Definition op_ant (o : operand) (a : ant) : Prop :=
  0 <= a_num a /\ exists o', neg_of o = (a_neg a, o') /\
  view_of o' = Ok (match a_pol a with Some c => VPol (a_num a) c | None => VNum (a_num a) end).
Lemma op_ant_text s a : ant_text s a -> op_ant (OStr s) a.
Proof.
  intros H. destruct (ant_text_inv s a H) as (d & D & Z & E & P). split; auto.
  exists (OStr (d ++ match a_pol a with Some c => [c] | None => [] end)). split; [|apply view_ant; auto].
  subst s. destruct (a_neg a); cbn [app].
  - reflexivity.
  - destruct (digits_horner d _ D) as (_ & N & F & _). destruct d as [|x d]; [congruence|]. cbn [app neg_of].
    cbn [forallb] in F. apply andb_true_iff in F as [F _]. rewrite digit_not; auto.
Qed.
Lemma op_ant_int n : 0 <= n -> op_ant (OInt n) (Ant false n None).
Proof. intros H. split; auto. exists (OInt n). auto. Qed.

Lemma pair_entries_spec i j a b : op_ant i a -> op_ant j b -> pair_entries i j = Ok (pair_meaning a b).
Proof.
  intros (A & i' & NA & VA) (B & j' & NB & VB). unfold pair_entries. rewrite NA, NB, VA. cbn [bind].
  rewrite VB. cbn [bind]. unfold pair_meaning, pols. rewrite negb_orb.
  destruct (a_pol a), (a_pol b); rewrite !Z.abs_eq by auto; reflexivity.
Qed.

Lemma rows_spec is_ js as_ bs : Forall2 op_ant is_ as_ -> Forall2 op_ant js bs ->
  bind (map_res (fun i => bind (map_res (fun j => pair_entries i j) js) (fun l => Ok (List.concat l))) is_)
       (fun l => Ok (List.concat l)) = Ok (flat_map (fun a => flat_map (pair_meaning a) bs) as_).
Proof.
  intros FA FB.
  assert (R : forall i a, op_ant i a -> bind (map_res (fun j => pair_entries i j) js) (fun l => Ok (List.concat l)) = Ok (flat_map (pair_meaning a) bs)).
  { intros i a H. rewrite (map_res_ok _ js (map (pair_meaning a) bs)).
    - cbn [bind]. rewrite flat_map_concat_map. auto.
    - clear -H FB. induction FB; constructor; auto. apply pair_entries_spec; auto. }
  rewrite (map_res_ok _ is_ (map (fun a => flat_map (pair_meaning a) bs) as_)).
  - cbn [bind]. rewrite (flat_map_concat_map _ as_). auto.
  - clear -FA R. induction FA; constructor; auto.
Qed.

(* ---- one item ---- *)
Definition tail (c : bool) (r : str) : str := if c then ","%char :: r else [].
Lemma stop_tail c r : stop (tail c r).
Proof. destruct c; simpl; auto. Qed.
Lemma opt_comma_tail c r : opt_comma (tail c r) = if c then r else [].
Proof. destruct c; auto. Qed.

Lemma ops_texts texts as_ : Forall2 ant_text texts as_ -> Forall2 op_ant (map OStr texts) as_.
Proof. induction 1; constructor; auto. apply op_ant_text; auto. Qed.

Lemma letter_no_re c s : is_digit c = false -> c <> "-"%char -> c <> "("%char -> re_bl (c :: s) = None.
Proof.
  intros A B C. unfold re_bl, re_ant, re_single. rewrite (ceqb_neq c "(") by auto. rewrite (ceqb_neq c "-") by auto.
  cbn [span_digits]. rewrite A. auto.
Qed.

Lemma item_step t i c r nants fuel rv : item_text t i -> 0 <= nants ->
  t ++ tail c r <> [] ->
  parse_ants_loop (S fuel) rv (t ++ tail c r) nants =
  parse_ants_loop fuel (item_meaning nants rv i) (if c then r else []) nants.
Proof.
  intros H NA NE.
  destruct H as [ | | | s a H | s t a b H1 H2].
  - cbn [parse_ants_loop lit list_ascii_of_string app]. rewrite letter_no_re by (reflexivity || discriminate).
    destruct c; reflexivity.
  - cbn [parse_ants_loop lit list_ascii_of_string app]. rewrite letter_no_re by (reflexivity || discriminate).
    destruct c; reflexivity.
  - cbn [parse_ants_loop lit list_ascii_of_string app]. rewrite letter_no_re by (reflexivity || discriminate).
    destruct c; reflexivity.
  - assert (G := re_ant_group s [a] (tail c r) (gt_one s a H) (stop_tail c r)).
    destruct G as (ins & texts & R & O & F).
    cbn [parse_ants_loop]. destruct (s ++ tail c r) as [|x y] eqn:E; [congruence|]. rewrite <- E in *. clear E x y.
    assert (B : re_bl (s ++ tail c r) = Some (MOne s, if c then r else [])).
    { unfold re_bl. rewrite R. rewrite opt_comma_tail. destruct c; cbn [tail]; auto. }
    rewrite B.
    assert (Q : bl_entries (MOne s) nants = Ok (flat_map (fun j => pair_meaning a (Ant false j None)) (zrange 0 nants))).
    { unfold bl_entries.
      rewrite (rows_spec [OStr s] (map OInt (zrange 0 nants)) [a] (map (fun j => Ant false j None) (zrange 0 nants))).
      - cbn [flat_map]. rewrite app_nil_r. f_equal. induction (zrange 0 nants) as [|z zs IH]; auto. cbn [map flat_map]. rewrite IH. auto.
      - constructor; [apply op_ant_text; auto | constructor].
      - assert (P : Forall (fun z => 0 <= z) (zrange 0 nants)).
        { apply Forall_forall. intros z Hz. apply in_zrange in Hz. lia. }
        induction P; cbn [map]; constructor; auto. apply op_ant_int; auto. }
    rewrite Q. reflexivity.
  - destruct (re_ant_group s a ("_"%char :: t ++ tail c r) H1) as (ins & texts & R & O & F); [left; auto|].
    destruct (re_ant_group t b (tail c r) H2 (stop_tail c r)) as (ins2 & texts2 & R2 & O2 & F2).
    replace ((s ++ "_"%char :: t) ++ tail c r) with (s ++ "_"%char :: t ++ tail c r) in * by (rewrite <- app_assoc; auto).
    cbn [parse_ants_loop]. destruct (s ++ "_"%char :: t ++ tail c r) as [|x y] eqn:E; [congruence|]. rewrite <- E in *. clear E x y.
    assert (B : re_bl (s ++ "_"%char :: t ++ tail c r) = Some (MPair s ins t ins2, if c then r else [])).
    { unfold re_bl. rewrite R. change (ceqb "_" "_") with true. cbv iota. rewrite R2. rewrite opt_comma_tail. auto. }
    rewrite B.
    assert (Q : bl_entries (MPair s ins t ins2) nants = Ok (flat_map (fun a => flat_map (pair_meaning a) b) a)).
    { unfold bl_entries. fold (operands s ins). fold (operands t ins2). rewrite O, O2.
      apply rows_spec; apply ops_texts; auto. }
    rewrite Q. reflexivity.
Qed.

Lemma item_text_ne t i : item_text t i -> t <> [].
Proof.
  intros H. destruct H as [ | | | s a H | s t a b H1 H2]; try discriminate.
  - destruct (ant_head s a H) as (c & r & -> & _). discriminate.
  - destruct s; discriminate.
Qed.

Lemma items_loop texts items nants : Forall2 item_text texts items -> 0 <= nants ->
  forall fuel rv, (List.length (join ","%char texts) < fuel)%nat ->
  parse_ants_loop fuel rv (join ","%char texts) nants = Ok (fold_left (item_meaning nants) items rv).
Proof.
  intros F NA. induction F as [|t i texts items H F IH]; intros fuel rv L.
  - cbn [join List.length] in *. destruct fuel as [|fuel]; [lia|]. reflexivity.
  - assert (NE := item_text_ne t i H). destruct fuel as [|fuel]; [lia|]. destruct texts as [|t2 texts].
    + cbn [join] in *. assert (E := item_step t i false [] nants fuel rv H NA). cbn [tail] in E. rewrite app_nil_r in E.
      rewrite E by auto. inversion F; subst. cbn [fold_left].
      destruct fuel as [|fuel]; [|reflexivity]. destruct t; [congruence|]. simpl in L. lia.
    + change (join ","%char (t :: t2 :: texts)) with (t ++ tail true (join ","%char (t2 :: texts))) in *.
      rewrite (item_step t i true _ nants fuel rv H NA) by (destruct t; discriminate).
      cbn [fold_left]. apply IH. rewrite app_length in L. cbn [tail List.length] in L. destruct t; [congruence|]. cbn [List.length] in L. lia.
Qed.

Theorem parse_ants_meaning texts items nants : Forall2 item_text texts items -> 0 <= nants ->
  parse_ants (join ","%char texts) nants = Ok (meaning nants items).
Proof. intros F NA. unfold parse_ants, meaning. apply items_loop; auto. Qed.

(* ---- what is rejected ---- *)
Lemma starts_app w : forall s, starts w s = true -> exists r, s = w ++ r.
Proof.
  induction w as [|c w IH]; intros [|x s]; cbn [starts app]; try discriminate; eauto.
  intros H. apply andb_true_iff in H as [H1 H2]. apply Ascii.eqb_eq in H1. destruct (IH s H2) as (r & ->). subst. eauto.
Qed.
Lemma digit_is c : is_digit c = true -> exists d, 0 <= d <= 9 /\ c = digit_of d.
Proof.
  intros H. destruct (digit_cases c H) as [_ R]. exists (cval c - 48). split; [lia|]. unfold digit_of, cval in *.
  replace (Z.to_N (48 + (Z.of_N (N_of_ascii c) - 48))) with (N_of_ascii c) by lia. symmetry. apply ascii_N_embedding.
Qed.
Lemma digits_of_span s : forall d r, span_digits s = (d, r) -> s = d ++ r /\ forallb is_digit d = true.
Proof.
  induction s as [|c s IH]; cbn [span_digits]; intros d r; [intros [= <- <-]; auto|].
  destruct (is_digit c) eqn:E; [|intros [= <- <-]; auto]. destruct (span_digits s) as [d' t]. intros [= <- <-].
  destruct (IH d' t eq_refl) as [-> F]. split; auto. cbn [forallb]. rewrite E, F. auto.
Qed.
Lemma digits_all d : forallb is_digit d = true -> d <> [] -> exists n, digits d n.
Proof.
  induction d as [|c d IH] using rev_ind; [congruence|]. intros F _. rewrite forallb_app in F. apply andb_true_iff in F as [F1 F2].
  cbn [forallb] in F2. rewrite andb_true_r in F2. destruct (digit_is c F2) as (k & K & ->).
  destruct d as [|x d]; [exists k; constructor; auto|]. destruct IH as (n & D); auto; try discriminate. exists (10 * n + k). constructor; auto.
Qed.
Definition sgn (ng : bool) : str := if ng then ["-"%char] else [].
Lemma ant_plain ng d n : digits d n -> ant_text (sgn ng ++ d) (Ant ng n None).
Proof. intros D. pose proof (at_intro ng d n None D) as H. cbv iota in H. rewrite app_nil_r in H. apply H. discriminate. Qed.
Lemma xy_is c : is_xy c = true -> c = "x"%char \/ c = "y"%char.
Proof. unfold is_xy, ceqb. rewrite orb_true_iff, !Ascii.eqb_eq. auto. Qed.
Lemma ceqb_is a b : ceqb a b = true -> a = b.
Proof. apply Ascii.eqb_eq. Qed.
Lemma urun_inv s : (urun UStart s = true -> ants_run s) /\ (urun UComma s = true -> s = [] \/ ants_run s) /\
  (urun UMinus s = true -> ants_run ("-"%char :: s)) /\
  (forall ng d n, digits d n -> urun UDigit s = true -> ants_run (sgn ng ++ d ++ s)) /\
  (forall t a, ant_text t a -> urun UPol s = true -> ants_run (t ++ s)).
Proof.
  induction s as [|c s (S1 & S2 & S3 & S4 & S5)].
  - cbn [urun]. repeat split; auto; try discriminate.
    + intros ng d n D _. rewrite app_nil_r. econstructor. apply ant_plain; eauto.
    + intros t a A _. rewrite app_nil_r. econstructor. eauto.
  - cbn [urun]. unfold unext. destruct (is_digit c) eqn:E.
    + destruct (digit_is c E) as (k & K & ->). pose proof (dg_one k K) as D1.
      split; [intros H; apply (S4 false _ _ D1 H)|]. split; [intros H; right; apply (S4 false _ _ D1 H)|].
      split; [intros H; apply (S4 true _ _ D1 H)|]. split.
      * intros ng d n D H. replace (d ++ digit_of k :: s) with ((d ++ [digit_of k]) ++ s) by (rewrite <- app_assoc; auto).
        eapply S4; [|exact H]. constructor; eauto.
      * intros t a A H. eapply ar_next; [exact A|]. apply (S4 false _ _ D1 H).
    + split; [destruct (ceqb c "-") eqn:M; [apply ceqb_is in M; subst; auto | discriminate]|].
      split; [destruct (ceqb c "-") eqn:M; [apply ceqb_is in M; subst; auto | discriminate]|]. split; [discriminate|].
      split.
      * intros ng d n D. pose proof (ant_plain ng d n D) as A. destruct (ceqb c "-") eqn:M; [|destruct (is_xy c) eqn:X; [|destruct (ceqb c ",") eqn:Q; [|discriminate]]].
        -- apply ceqb_is in M. subst. intros H. rewrite app_assoc. eapply ar_next; eauto.
        -- intros H. replace (sgn ng ++ d ++ c :: s) with ((sgn ng ++ d ++ [c]) ++ s) by (rewrite <- !app_assoc; auto).
           apply (S5 _ (Ant ng n (Some c))); auto. apply (at_intro ng d n (Some c)); auto. intros ? [= <-]. apply xy_is; auto.
        -- apply ceqb_is in Q. subst. intros H. rewrite app_assoc. destruct (S2 H) as [-> |R]; [eapply ar_comma | eapply ar_more]; eauto.
      * intros t a A. destruct (ceqb c "-") eqn:M; [|destruct (ceqb c ",") eqn:Q; [|discriminate]].
        -- apply ceqb_is in M. subst. intros H. eapply ar_next; eauto.
        -- apply ceqb_is in Q. subst. intros H. destruct (S2 H) as [-> |R]; [eapply ar_comma | eapply ar_more]; eauto.
Qed.
Lemma until_inv s : forall l r, until_paren s = Some (l, r) -> s = l ++ ")"%char :: r.
Proof.
  induction s as [|c s IH]; cbn [until_paren]; intros l r; [discriminate|]. destruct (ceqb c ")") eqn:E.
  - intros [= <- <-]. apply ceqb_is in E. subst. auto.
  - destruct (until_paren s) as [[a b]|]; [|discriminate]. intros [= <- <-]. rewrite (IH a b eq_refl). auto.
Qed.
Lemma re_single_inv s t r : re_single s = Some (t, r) -> exists a, ant_text t a /\ s = t ++ r.
Proof.
  unfold re_single. intros H.
  assert (X : exists ng s1, s = sgn ng ++ s1 /\ (let '(d, s2) := span_digits s1 in
     match d with [] => None | _ => match s2 with c :: s3 => if is_xy c then Some (sgn ng ++ d ++ [c], s3) else Some (sgn ng ++ d, s2) | [] => Some (sgn ng ++ d, []) end end) = Some (t, r)).
  { destruct s as [|c s]; [exists false, []; auto|]. destruct (ceqb c "-") eqn:E.
    - apply ceqb_is in E. subst. exists true, s. auto.
    - exists false, (c :: s). auto. }
  clear H. destruct X as (ng & s1 & -> & H). destruct (span_digits s1) as [d s2] eqn:E. apply digits_of_span in E as [-> F].
  destruct d as [|x d]; [discriminate|]. destruct (digits_all (x :: d) F) as (n & D); [discriminate|].
  destruct s2 as [|c s3]; [|destruct (is_xy c) eqn:X]; injection H as <- <-.
  - exists (Ant ng n None). split; [apply ant_plain; auto|]. rewrite <- app_assoc. auto.
  - exists (Ant ng n (Some c)). split; [apply (at_intro ng (x :: d) n (Some c)); auto; intros ? [= <-]; apply xy_is; auto|]. rewrite <- app_assoc. cbn [app]. rewrite <- app_assoc. reflexivity.
  - exists (Ant ng n None). split; [apply ant_plain; auto|]. rewrite <- app_assoc. reflexivity.
Qed.
Lemma re_bl_inv s m r : re_bl s = Some (m, r) -> begins_item s.
Proof.
  unfold re_bl. destruct (re_ant s) as [[[a ain] q]|] eqn:E; [intros _ | discriminate]. unfold re_ant in E. destruct s as [|c s]; [discriminate|].
  destruct (ceqb c "(") eqn:P.
  - apply ceqb_is in P. subst. destruct (until_paren s) as [[l x]|] eqn:U; [|discriminate]. apply until_inv in U. subst.
    destruct (urun UStart l) eqn:R; [|discriminate]. apply bi_group. apply urun_inv. auto.
  - destruct (re_single (c :: s)) as [[t x]|] eqn:R; [|discriminate]. apply re_single_inv in R as (b & A & ->). eapply bi_ant; eauto.
Qed.
Lemma loop_begins fuel rv s nants l : parse_ants_loop fuel rv s nants = Ok l -> s = [] \/ begins_item s.
Proof.
  destruct fuel as [|fuel]; [discriminate|]. cbn [parse_ants_loop]. destruct s as [|c s]; auto. right.
  destruct (re_bl (c :: s)) as [[m r]|] eqn:E; [eapply re_bl_inv; eauto|].
  destruct (starts (lit "all") _) eqn:S1; [apply starts_app in S1 as (r & ->); apply bi_word; cbn [In]; auto|].
  destruct (starts (lit "auto") _) eqn:S2; [apply starts_app in S2 as (r & ->); apply bi_word; cbn [In]; auto|].
  destruct (starts (lit "cross") _) eqn:S3; [apply starts_app in S3 as (r & ->); apply bi_word; cbn [In]; auto|discriminate].
Qed.
Theorem items_then texts items nants s l : Forall2 item_text texts items -> 0 <= nants ->
  parse_ants (List.concat (map (fun t => t ++ [","%char]) texts) ++ s) nants = Ok l -> s = [] \/ begins_item s.
Proof.
  intros F N. unfold parse_ants. generalize (S (List.length (List.concat (map (fun t => t ++ [","%char]) texts) ++ s))) as fuel. generalize (@nil entry) as rv.
  induction F as [|t i texts items H F IH]; intros rv fuel.
  - apply loop_begins.
  - destruct fuel as [|fuel]; [discriminate|]. cbn [map List.concat].
    replace ((((t ++ [","%char]) ++ List.concat (map (fun t => t ++ [","%char]) texts)) ++ s)) with (t ++ tail true (List.concat (map (fun t => t ++ [","%char]) texts) ++ s)) by (cbn [tail]; rewrite <- !app_assoc; auto).
    rewrite (item_step t i true _ nants fuel rv H N) by (destruct t; discriminate). apply IH.
Qed.
