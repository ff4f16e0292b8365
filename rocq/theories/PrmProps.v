From Verif Require Import Base ScriptModel ScriptSpec ScriptProofs PrmModel PrmSpec PrmProofs.
From Coq Require Import Ascii String.
Ltac Zify.zify_post_hook ::= idtac.
Open Scope nat_scope.
Local Notation length := List.length.

(* A parameter string gives each parameter of each object the value and width written for it last,
   and mentions no other object; for any reading of the numbers. *)
Theorem C55_parameters_denoted (F : Type) (tofloat : str -> option F) texts items :
  texts <> [] -> Forall2 (assign_text F tofloat) texts items -> Forall (assign_ok F) items ->
  exists d, parse_prms F tofloat (join ","%char texts) = Ok d /\
    (forall o p, match dget d o with Some e => dget e p | None => None end =
                 last_setting F (flat_map (settings F) items) o p) /\
    (forall o, dget d o <> None <-> exists p, last_setting F (flat_map (settings F) items) o p <> None).
Proof.
  intros NE T K. unfold parse_prms. rewrite split_join; [|exact NE|].
  2:{ clear NE K. induction T; constructor; auto. eapply assign_text_comma; eauto. }
  destruct (items_ok F tofloat texts [] items T K) as (d & E & L). exists d. split; [exact E|].
  assert (L' : forall o p, look2 F d o p = last_setting F (flat_map (settings F) items) o p).
  { intros o p. rewrite L. destruct (last_setting F (flat_map (settings F) items) o p); reflexivity. }
  split; [exact L'|]. intros o. rewrite (full_in F d o); [|eapply items_full; [apply full_nil|exact E]].
  split; intros [p H]; exists p; [rewrite <- L'; exact H|rewrite L'; exact H].
Qed.

(* An assignment with the wrong number of numbers makes the whole string refused. *)
Theorem C55_counts_checked (F : Type) (tofloat : str -> option F) texts items :
  Forall2 (assign_text F tofloat) texts items -> Exists (fun a => ~ assign_ok F a) items ->
  parse_prms F tofloat (join ","%char texts) = Err.
Proof.
  intros T X. unfold parse_prms. rewrite split_join.
  - eapply items_bad; eauto.
  - intros ->. inversion T; subst. inversion X.
  - clear X. induction T; constructor; auto. eapply assign_text_comma; eauto.
Qed.

(* Whatever is accepted is a list of assignments, each perhaps followed by text that is ignored. *)
Theorem C55_accepted_begins_with_assignments (F : Type) (tofloat : str -> option F) s d :
  parse_prms F tofloat s = Ok d ->
  exists texts ignored items,
    s = join ","%char (map (fun x => fst x ++ snd x) (combine texts ignored)) /\ length texts = length ignored /\
    Forall (fun t => ~ In ","%char t) ignored /\
    Forall2 (assign_text F tofloat) texts items /\ Forall (assign_ok F) items /\
    forall o p, match dget d o with Some e => dget e p | None => None end =
                last_setting F (flat_map (settings F) items) o p.
Proof.
  unfold parse_prms. intros H. destruct (items_inv F tofloat _ _ _ H) as (ts & js & ass & A & B & C & D & L).
  exists ts, js, ass. rewrite <- A, join_split. split; [reflexivity|]. split; [exact B|]. split.
  - pose proof (split_pieces ","%char s) as S. rewrite A in S. clear - S B. revert js B S.
    induction ts as [|t ts IH]; intros [|j js] B S; try discriminate; [constructor|].
    cbn [combine map fst snd] in S. inversion S as [|? ? S1 S2]; subst. constructor.
    + intros X. apply S1. apply in_or_app. auto.
    + apply IH; [cbn in B; lia|exact S2].
  - split; [exact C|]. split; [exact D|]. intros o p. specialize (L o p). unfold look2 in L. rewrite L.
    destruct (last_setting F (flat_map (settings F) ass) o p); reflexivity.
Qed.

(* text after an assignment is silently dropped: "cyg=jys=3" (a '=' where a '/' was meant) is
   accepted, and the parameter is given no value *)
Theorem C55_nothing_ignored_refuted (F : Type) (tofloat : str -> option F) :
  ~ (forall s d, parse_prms F tofloat s = Ok d ->
       exists texts items, s = join ","%char texts /\ texts <> [] /\ Forall2 (assign_text F tofloat) texts items).
Proof.
  intros H.
  assert (E : parse_prms F tofloat (lit "cyg=jys=3") = Ok [(lit "cyg", [(lit "jys", (None, None))])]) by reflexivity.
  destruct (H _ _ E) as (texts & items & J & NE & T).
  assert (S : split ","%char (join ","%char texts) = texts).
  { apply split_join; [exact NE|]. clear - T. induction T; constructor; auto. eapply assign_text_comma; eauto. }
  rewrite <- J in S. assert (S' : split ","%char (lit "cyg=jys=3") = [lit "cyg=jys=3"]) by reflexivity.
  rewrite S' in S. subst texts. inversion T as [|? a ? ? Ta]; subst. apply assign_eqs in Ta. vm_compute in Ta. discriminate.
Qed.

(* hypotheses met: two objects and one parameter with a value each, then one object with two parameters
   and one width, the first setting overridden; numbers read as their texts *)
Definition ex_num (s : str) : option str := if forallb (fun c => existsb (ceqb c) (lit "0123456789.")) s then Some s else None.
Example C55_parameters_example :
  let t1 := lit "(cyg/cas)=jys/(10/20)" in
  let t2 := lit "cyg=(jys/index)//0.1" in
  let i1 := Assign str [lit "cyg"; lit "cas"] [lit "jys"] (Some [lit "10"; lit "20"]) None in
  let i2 := Assign str [lit "cyg"] [lit "jys"; lit "index"] None (Some [lit "0.1"]) in
  Forall2 (assign_text str ex_num) [t1; t2] [i1; i2] /\ Forall (assign_ok str) [i1; i2] /\
  parse_prms str ex_num (lit "(cyg/cas)=jys/(10/20),cyg=(jys/index)//0.1") =
    Ok [(lit "cyg", [(lit "jys", (None, Some (lit "0.1"))); (lit "index", (None, Some (lit "0.1")))]);
        (lit "cas", [(lit "jys", (Some (lit "20"), None))])].
Proof.
  assert (NK : forall n, n <> [] -> forallb (fun c => negb (special c)) n = true -> name_ok n).
  { intros n A B. split; [exact A|]. intros c Hc. apply special_not. rewrite forallb_forall in B.
    specialize (B c Hc). destruct (special c); [discriminate|reflexivity]. }
  cbv zeta. split; [|split; [|reflexivity]].
  - constructor; [|constructor; [|constructor]].
    + change (lit "(cyg/cas)=jys/(10/20)") with
        (("("%char :: join "/"%char [lit "cyg"; lit "cas"] ++ [")"%char]) ++ "="%char :: lit "jys" ++ ("/"%char :: ("("%char :: join "/"%char [lit "10"; lit "20"] ++ [")"%char]))).
      constructor.
      * apply nt_many; [discriminate|]. repeat constructor; try discriminate; apply NK; (discriminate || reflexivity).
      * apply nt_one. apply NK; (discriminate || reflexivity).
      * apply tt_val. exists [lit "10"; lit "20"]. split; [|repeat constructor].
        apply nt_many; [discriminate|]. constructor; [|constructor; [|constructor]]; apply NK; (discriminate || reflexivity).
    + change (lit "cyg=(jys/index)//0.1") with
        (lit "cyg" ++ "="%char :: ("("%char :: join "/"%char [lit "jys"; lit "index"] ++ [")"%char]) ++ "/"%char :: "/"%char :: lit "0.1").
      constructor.
      * apply nt_one. apply NK; (discriminate || reflexivity).
      * apply nt_many; [discriminate|]. constructor; [|constructor; [|constructor]]; apply NK; (discriminate || reflexivity).
      * apply tt_sig. exists [lit "0.1"]. split; [|repeat constructor]. apply nt_one. apply NK; (discriminate || reflexivity).
  - constructor; [|constructor; [|constructor]]; split; cbn; auto.
Qed.
(* a value for each object and each of several parameters cannot be given *)
Example C55_counts_example :
  let a := Assign str [lit "cyg"; lit "cas"] [lit "jys"; lit "index"] (Some [lit "1"; lit "2"]) None in
  ~ assign_ok str a /\ parse_prms str ex_num (lit "(cyg/cas)=(jys/index)/(1/2)") = Err.
Proof. cbv zeta. split; [|reflexivity]. intros [[H|[[H _]|[H _]]] _]; discriminate. Qed.

(* A list of sources keeps its order, and each is the position or the name written; the catalogues are those named. *)
Theorem C55_sources_denoted (F : Type) (tofloat : str -> option F) terms cats :
  terms <> [] -> cats <> [] ->
  Forall (fun t => ~ In ","%char t /\ ~ In "/"%char t) terms -> Forall (fun t => ~ In ","%char t) cats ->
  (forall r, join ","%char terms <> lit "all" ++ r) ->
  exists xs, parse_srcs F tofloat (join ","%char terms) (join ","%char cats) = Ok (SList F xs, cats) /\
    Forall2 (src_means F tofloat) terms xs /\
    forall ys, Forall2 (src_means F tofloat) terms ys -> ys = xs.
Proof.
  intros NE NC FT FC NA. exists (map (src_term F tofloat) terms). split.
  - unfold parse_srcs. rewrite (split_join ","%char cats) by auto.
    destruct (starts (lit "all") (join ","%char terms)) eqn:S.
    { exfalso. apply starts_pre in S as [r Hr]. exact (NA r Hr). }
    destruct (has_char "/"%char (join ","%char terms)) eqn:Hc.
    { exfalso. apply has_char_spec in Hc. revert Hc. change (free "/"%char (join ","%char terms)). apply join_free; [discriminate|].
      eapply Forall_impl; [|exact FT]. intros t [_ B]. exact B. }
    rewrite split_join; [reflexivity|exact NE|]. eapply Forall_impl; [|exact FT]. intros t [A _]. exact A.
  - split.
    + clear. induction terms; constructor; auto. apply src_term_means.
    + clear. induction terms as [|t terms IH]; intros ys H; inversion H; subst; [reflexivity|]. cbn [map]. f_equal; [|apply IH; assumption].
      eapply src_means_fun; [eassumption|apply src_term_means].
Qed.
(* A cut is a list of numbers separated by '/'; the numbers are kept in order, and a bad number is refused. *)
Theorem C55_cut_denoted (F : Type) (tofloat : str -> option F) ts l cat :
  2 <= length ts -> Forall (fun t => ~ In "/"%char t) ts -> Forall2 (fun t x => tofloat t = Some x) ts l ->
  (forall r, join "/"%char ts <> lit "all" ++ r) ->
  parse_srcs F tofloat (join "/"%char ts) cat = Ok (SCut F l, split ","%char cat).
Proof.
  intros L FT H NA. unfold parse_srcs.
  destruct (starts (lit "all") (join "/"%char ts)) eqn:S.
  { exfalso. apply starts_pre in S as [r Hr]. exact (NA r Hr). }
  assert (I : has_char "/"%char (join "/"%char ts) = true).
  { apply has_char_spec. destruct ts as [|a [|b ts]]; cbn in L; try lia.
    change (join "/"%char (a :: b :: ts)) with (a ++ "/"%char :: join "/"%char (b :: ts)). apply in_or_app. right. left. reflexivity. }
  rewrite I, split_join; [|destruct ts; [cbn in L; lia|discriminate]|exact FT].
  rewrite (map_res_ok _ _ l); [reflexivity|]. clear - H. induction H; constructor; auto. unfold float. now rewrite H.
Qed.
(* a source whose name begins with "all" cannot be asked for: every source is meant instead *)
Theorem C55_named_source_refuted (F : Type) (tofloat : str -> option F) :
  ~ (forall s cat, ~ In ","%char s -> ~ In "/"%char s -> s <> lit "all" -> s <> [] ->
       exists x, parse_srcs F tofloat s cat = Ok (SList F [x], split ","%char cat)).
Proof.
  intros H. destruct (H (lit "alluvion") (lit "misc")) as [x Hx]; try discriminate.
  - cbn. intuition discriminate.
  - cbn. intuition discriminate.
Qed.
Example C55_sources_example :
  parse_srcs str ex_num (lit "cyg,12:30:00_40:00,cas_a") (lit "helm,misc") =
    Ok (SList str [SName (lit "cyg"); SPos (lit "12:30:00") (lit "40:00") (lit "12:30:00_40:00"); SName (lit "cas_a")],
        [lit "helm"; lit "misc"]) /\
  parse_srcs str ex_num (lit "10/0.15") (lit "helm") = Ok (SCut str [lit "10"; lit "0.15"], [lit "helm"]).
Proof. split; reflexivity. Qed.

Print Assumptions C55_parameters_denoted.
Print Assumptions C55_counts_checked.
Print Assumptions C55_accepted_begins_with_assignments.
Print Assumptions C55_nothing_ignored_refuted.
Print Assumptions C55_sources_denoted.
Print Assumptions C55_cut_denoted.
Print Assumptions C55_named_source_refuted.
