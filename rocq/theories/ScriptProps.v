(* C19, C20: channel and antenna strings. *)
From Coq Require Import QArith Ascii String.
From Verif Require Import Base BaselineModel BaselineProofs SelModel SelSpec SelProps
  ScriptModel ScriptSpec ScriptProofs ScriptProofs2 ScriptProofs3.
Open Scope Z_scope.
Ltac Zify.zify_post_hook ::= idtac.

(* C19: a comma list of channels, ranges and stepped ranges denotes those channels, in order *)
Theorem C19_channels_denoted texts items nchan :
  texts <> [] -> Forall2 chan_text texts items ->
  exists ls, Forall2 chan_list items ls /\
    parse_chans_list (join ","%char texts) nchan = Ok ls /\
    parse_chans (join ","%char texts) nchan = Ok (List.concat ls).
Proof. intros N F. destruct (parse_chans_accepts texts items nchan N F) as (ls & A & B & C). eauto. Qed.

(* anything starting with "all" denotes every channel once, ascending *)
Theorem C19_all_channels s nchan : 0 <= nchan ->
  exists l, parse_chans (lit "all" ++ s) nchan = Ok l /\ upto 0 (nchan - 1) 1 l.
Proof.
  intros N. exists (zrange 0 nchan). split; [cbn; rewrite app_nil_r; reflexivity|]. split.
  - intros i x H. unfold zrange in H. rewrite nth_error_map in H.
    destruct (nth_error (seq 0 (Z.to_nat (nchan - 0))) i) as [k|] eqn:E; [|discriminate]. injection H as <-.
    assert (i < Z.to_nat (nchan - 0))%nat.
    { rewrite <- (seq_length (Z.to_nat (nchan - 0)) 0). apply nth_error_Some. congruence. }
    rewrite (nth_error_nth' _ 0%nat) in E by (rewrite seq_length; auto). injection E as <-. rewrite seq_nth by auto. lia.
  - intros i. unfold zrange. rewrite nth_error_Some, map_length, seq_length. lia.
Qed.

(* nothing else is accepted: wrong arity, non-numbers and a zero step are rejected *)
Theorem C19_nothing_else s nchan ls : parse_chans_list s nchan = Ok ls ->
  (exists r, s = lit "all" ++ r) \/
  exists texts items, s = join ","%char texts /\ Forall2 chan_text texts items /\ Forall2 chan_list items ls.
Proof.
  intros H. destruct (parse_chans_only s nchan ls H) as [[A _]|R]; [left|right; auto].
  change (lit "all") with ["a"; "l"; "l"]%char in *.
  destruct s as [|c1 [|c2 [|c3 r]]]; cbn [starts] in A; rewrite ?andb_false_r in A; try discriminate A.
  apply andb_prop in A as [A1 A]. apply andb_prop in A as [A2 A]. apply andb_prop in A as [A3 _].
  apply Ascii.eqb_eq in A1, A2, A3. subst. exists r. reflexivity.
Qed.

(* a descending stepped range leaves out its end point although ranges include end points *)
Theorem C19_descending_end_refuted :
  exists s l, numeral (lit "4") 4 /\ s = lit "10_4_-2" /\ parse_chans s 64 = Ok l /\ ~ In 4 l /\ In 6 l.
Proof.
  exists (lit "10_4_-2"), [10; 8; 6]. split.
  - apply (nu_pos [] (lit "4") [] 4); try constructor. change (lit "4") with [digit_of 4]. constructor; lia.
  - split; auto. split; [vm_compute; reflexivity|]. simpl. split; intuition discriminate.
Qed.

(* ---- C20 ---- *)
(* an antenna string denotes the entries of its items, in order *)
Theorem C20_entries_denoted texts items nants :
  Forall2 item_text texts items -> 0 <= nants ->
  parse_ants (join ","%char texts) nants = Ok (meaning nants items).
Proof. exact (parse_ants_meaning texts items nants). Qed.

(* after any items, a text that does not begin as an item does raises an error *)
Theorem C20_rejects texts items nants s l : Forall2 item_text texts items -> 0 <= nants ->
  parse_ants (List.concat (map (fun t => t ++ [","%char]) texts) ++ s) nants = Ok l -> s = [] \/ begins_item s.
Proof. exact (items_then texts items nants s l). Qed.
Lemma ants_run_head l : ants_run l -> exists c r, l = c :: r /\ (is_digit c = true \/ c = "-"%char).
Proof. intros R. destruct R as [s a H | s a H | s a r H | s a r H]; destruct (ant_head _ _ H) as (c & x & -> & C); cbn [app]; eauto. Qed.
Example C20_rejects_case : ~ begins_item (lit "()_1") /\ ~ begins_item (lit "x1").
Proof.
  assert (D : forall c, is_digit c = true \/ c = "-"%char -> c <> "("%char /\ c <> ")"%char /\ c <> "x"%char).
  { intros c [C | ->]; repeat split; try discriminate; intros ->; discriminate. }
  split; intros H; inversion H as [s a r A E | l r R E | w r W E].
  - destruct (ant_head _ _ A) as (c & t & -> & C). injection E as E _. destruct (D c C). tauto.
  - destruct (ants_run_head l R) as (c & t & -> & C). injection E as E _. destruct (D c C). tauto.
  - cbn [In] in W. destruct W as [<-|[<-|[<-|[]]]]; discriminate.
  - destruct (ant_head _ _ A) as (c & t & -> & C). injection E as E _. destruct (D c C). tauto.
  - cbn [In] in W. destruct W as [<-|[<-|[<-|[]]]]; discriminate.
Qed.

(* entries given to uv_selector keep exactly the records they denote *)
Theorem C20_entries_select recs l pol :
  Forall rec_ok recs -> Forall entry_ok l -> l <> [] -> pol <> Some [] ->
  exists cs s, uv_selector (Some l) pol = Ok cs /\ srun (uv_fresh recs) (map SSel cs) = Ok s /\
  forall k, nreads k (uv_rewind s) = firstn k (map Some (filter (entries_keep pol l) recs) ++ repeat None k).
Proof. exact (selector_reads recs l pol). Qed.

(* polarisation string alone *)
Theorem C20_polarisation_select recs l :
  Forall rec_ok recs -> l <> [] ->
  exists cs s, uv_selector None (Some l) = Ok cs /\ srun (uv_fresh recs) (map SSel cs) = Ok s /\
  forall k, nreads k (uv_rewind s) = firstn k (map Some (filter (pol_allows (Some l)) recs) ++ repeat None k).
Proof. exact (selector_pol_reads recs l). Qed.

(* from the antenna string to the records read *)
Definition ants_below (n : Z) (i : item) : Prop :=
  match i with
  | IAnt a => a_num a < n
  | IPair l r => Forall (fun a => a_num a < n) (l ++ r)
  | _ => True
  end.

Lemma digits_nonneg s n : digits s n -> 0 <= n.
Proof. induction 1; lia. Qed.
Definition ant_good (a : ant) : Prop := 0 <= a_num a <= 2046 /\ forall c, a_pol a = Some c -> c = "x"%char \/ c = "y"%char.
Lemma ant_text_good s a : ant_text s a -> a_num a < 2047 -> ant_good a.
Proof. intros H. inversion H; subst. cbn. intros L. apply digits_nonneg in H0. split; cbn; [lia | auto]. Qed.
Lemma group_good s l : group_text s l -> Forall (fun a => a_num a < 2047) l -> Forall ant_good l.
Proof.
  intros H. inversion H; subst.
  - intros F. inversion F; subst. constructor; auto. eapply ant_text_good; eauto.
  - intros F. clear -H1 F. induction H1; inversion F; subst; constructor; auto. eapply ant_text_good; eauto.
Qed.
Lemma pair_good a b : ant_good a -> ant_good b -> Forall entry_ok (pair_meaning a b).
Proof.
  intros [Ha Pa] [Hb Pb]. unfold pair_meaning. apply Forall_forall. intros e He. apply in_map_iff in He as (p & <- & Hp).
  split; cbn [e_bl e_pol].
  - intros bl E. injection E as <-. exists (a_num a), (a_num b). auto.
  - intros q ->. unfold pols in Hp. destruct (a_pol a) as [c|] eqn:Ea, (a_pol b) as [d|] eqn:Eb.
    + destruct Hp as [Hp|[]]. injection Hp as <-. destruct (Pa c eq_refl), (Pb d eq_refl); subst; discriminate.
    + destruct Hp as [Hp|[Hp|[]]]; injection Hp as <-; destruct (Pa c eq_refl); subst; discriminate.
    + destruct Hp as [Hp|[Hp|[]]]; injection Hp as <-; destruct (Pb d eq_refl); subst; discriminate.
    + destruct Hp as [Hp|[]]. discriminate.
Qed.
Lemma Forall_flat_map {A B} (P : B -> Prop) (f : A -> list B) l : Forall (fun x => Forall P (f x)) l -> Forall P (flat_map f l).
Proof. induction 1; cbn [flat_map]; auto. apply Forall_app; auto. Qed.
Lemma meaning_ok texts items nants : Forall2 item_text texts items -> Forall (ants_below 2047) items -> nants <= 2047 ->
  Forall entry_ok (meaning nants items).
Proof.
  intros F B N. unfold meaning. assert (G : Forall entry_ok (@nil entry)) by constructor. revert G.
  generalize (@nil entry) as acc. revert B. induction F as [|s i texts items H F IH]; intros B acc G; auto.
  inversion B as [|? ? Bi Br]; subst. cbn [fold_left]. apply IH; auto. destruct H; cbn [item_meaning].
  - constructor.
  - apply Forall_app. split; auto. constructor; auto. split; discriminate.
  - apply Forall_app. split; auto. constructor; auto. split; discriminate.
  - apply Forall_app. split; auto. apply Forall_flat_map. apply Forall_forall. intros j Hj. apply in_zrange in Hj.
    apply pair_good; [eapply ant_text_good; eauto|]. split; cbn; [lia | discriminate].
  - cbn [ants_below] in Bi. apply Forall_app in Bi as [Ba Bb].
    apply Forall_app. split; auto. apply Forall_flat_map.
    assert (GA := group_good _ _ H Ba). assert (GB := group_good _ _ H0 Bb).
    eapply Forall_impl; [|exact GA]. intros x Hx. apply Forall_flat_map. eapply Forall_impl; [|exact GB].
    intros y Hy. apply pair_good; auto.
Qed.

Theorem C20_string_to_records recs texts items nants pol :
  Forall rec_ok recs -> Forall2 item_text texts items -> Forall (ants_below 2047) items ->
  0 <= nants <= 2047 -> meaning nants items <> [] -> pol <> Some [] ->
  exists l cs s, parse_ants (join ","%char texts) nants = Ok l /\
  uv_selector (Some l) pol = Ok cs /\ srun (uv_fresh recs) (map SSel cs) = Ok s /\
  forall k, nreads k (uv_rewind s) =
    firstn k (map Some (filter (entries_keep pol (meaning nants items)) recs) ++ repeat None k).
Proof.
  intros R F B N NE NP. exists (meaning nants items).
  destruct (selector_reads recs (meaning nants items) pol) as (cs & s & E); auto.
  - eapply meaning_ok; eauto. lia.
  - exists cs, s. destruct E as (E1 & E2 & E3). split; auto. apply parse_ants_meaning; auto. lia.
Qed.

(* findings *)
Lemma parsed {A} (f : list entry -> A) r a n : match parse_ants a n with Ok l => f l = r | Err => False end ->
  exists l, parse_ants a n = Ok l /\ f l = r.
Proof. destruct (parse_ants a n) as [l|]; [eauto | tauto]. Qed.
(* a parenthesised list on its own is read as one antenna with a polarisation that does not exist *)
Theorem C20_lone_group_refuted :
  exists l, parse_ants (lit "(0,1)") 4 = Ok l /\ uv_selector (Some l) None = Err.
Proof. apply (parsed (fun l => _)). vm_compute. reflexivity. Qed.
(* "3x_1y" asks for x on antenna 3 and y on antenna 1; the baseline is stored as 1,3 and
   the entry is the same as that of "1x_3y" *)
Theorem C20_pol_not_swapped_refuted :
  parse_ants (lit "3x_1y") 4 = parse_ants (lit "1x_3y") 4 /\
  parse_ants (lit "3x_1y") 4 <> parse_ants (lit "1y_3x") 4.
Proof. split; vm_compute; [reflexivity | discriminate]. Qed.
(* ants='all' with an explicit polarisation makes no selection at all *)
Theorem C20_all_with_pol_refuted p : 
  exists l, parse_ants (lit "all") 4 = Ok l /\ uv_selector (Some l) (Some [p]) = Ok [].
Proof. apply (parsed (fun l => _)). vm_compute. reflexivity. Qed.
(* excluding one antenna/polarisation keeps only that polarisation on all other baselines *)
Definition vpol (i j : Z) (p : Z) : vis :=
  {| v_i := i; v_j := j; v_time := 1%Q; v_num := fun k => match k with KPol => inject_Z p | _ => 0%Q end;
     v_offs := fun _ => []; v_shadow := fun _ => false; v_data := []; v_flags := [] |}.
Theorem C20_exclude_pol_refuted :
  exists l, parse_ants (lit "-0x_1x") 4 = Ok l /\
  map (entries_keep None l) [vpol 0 1 (-5); vpol 0 1 (-6); vpol 2 3 (-5); vpol 2 3 (-6)] = [false; false; true; false].
Proof. apply (parsed (fun l => _)). vm_compute. reflexivity. Qed.

(* ---- concrete cases ---- *)
Lemma dig (d : Z) : 0 <= d <= 9 -> digits [digit_of d] d.
Proof. apply dg_one. Qed.
Lemma two (a b : Z) : 0 <= a <= 9 -> 0 <= b <= 9 -> digits [digit_of a; digit_of b] (10 * a + b).
Proof. intros. change [digit_of a; digit_of b] with ([digit_of a] ++ [digit_of b]). constructor; auto. constructor; auto. Qed.
Lemma num s n : digits s n -> numeral s n.
Proof. intros H. assert (K := nu_pos [] s [] n). cbn in K. rewrite app_nil_r in K. apply K; auto; constructor. Qed.

Example chan_example :
  join ","%char [lit "7"; lit "20_30"; lit "0_10_2"] = lit "7,20_30,0_10_2" /\
  Forall2 chan_text [lit "7"; lit "20_30"; lit "0_10_2"] [One 7; Range 20 30; Step 0 10 2] /\
  parse_chans (lit "7,20_30,0_10_2") 64 = Ok ([7] ++ [20;21;22;23;24;25;26;27;28;29;30] ++ [0;2;4;6;8;10]).
Proof.
  split; [reflexivity|]. split; [|vm_compute; reflexivity].
  constructor; [apply ct_one, num, (dig 7); lia|].
  constructor; [apply (ct_range (lit "20") (lit "30")); apply num; [apply (two 2 0) | apply (two 3 0)]; lia|].
  constructor; [|constructor].
  apply (ct_step (lit "0") (lit "10") (lit "2")); [apply num, (dig 0) | apply num, (two 1 0) | apply num, (dig 2) |]; lia.
Qed.
Example chan_rejected : map (fun s => parse_chans (lit s) 64) ["1_2_3_4"; "a"; ""; "1_2_0"]%string = [Err; Err; Err; Err].
Proof. vm_compute. reflexivity. Qed.

Lemma at0 d : 0 <= d <= 9 -> ant_text [digit_of d] (Ant false d None).
Proof. intros H. apply (at_intro false [digit_of d] d None); [apply dig; auto | discriminate]. Qed.
Lemma atn d c : 0 <= d <= 9 -> c = "x"%char \/ c = "y"%char -> ant_text ("-"%char :: [digit_of d] ++ [c]) (Ant true d (Some c)).
Proof. intros H K. apply (at_intro true [digit_of d] d (Some c)); [apply dig; auto |]. intros q E. injection E as <-. auto. Qed.

Definition ex_texts : list str := map lit ["(0,1)_(2,3)"; "cross"; "-1x_2"]%string.
Definition ex_items : list item :=
  [IPair [Ant false 0 None; Ant false 1 None] [Ant false 2 None; Ant false 3 None]; ICross;
   IPair [Ant true 1 (Some "x"%char)] [Ant false 2 None]].
Example ants_hypotheses :
  Forall2 item_text ex_texts ex_items /\ Forall (ants_below 2047) ex_items /\ meaning 4 ex_items <> [].
Proof.
  split; [|split; [|discriminate]].
  - constructor; [|constructor; [apply it_cross|constructor; [|constructor]]].
    + apply (it_pair (lit "(0,1)") (lit "(2,3)")).
      * apply (gt_many [lit "0"; lit "1"]); [discriminate|]. constructor; [apply (at0 0); lia|]. constructor; [apply (at0 1); lia|constructor].
      * apply (gt_many [lit "2"; lit "3"]); [discriminate|]. constructor; [apply (at0 2); lia|]. constructor; [apply (at0 3); lia|constructor].
    + apply (it_pair (lit "-1x") (lit "2")); constructor; [apply (atn 1 "x"); [lia|auto] | apply (at0 2); lia].
  - repeat constructor.
Qed.
Example ants_example :
  join ","%char ex_texts = lit "(0,1)_(2,3),cross,-1x_2" /\
  parse_ants (lit "(0,1)_(2,3),cross,-1x_2") 4 =
    Ok [Ent (Some (ij2bl 0 2)) true None; Ent (Some (ij2bl 0 3)) true None;
        Ent (Some (ij2bl 1 2)) true None; Ent (Some (ij2bl 1 3)) true None; Ent None false None;
        Ent (Some (ij2bl 1 2)) false (Some ("x"%char, "x"%char));
        Ent (Some (ij2bl 1 2)) false (Some ("x"%char, "y"%char))].
Proof. split; vm_compute; reflexivity. Qed.

Definition ex_recs : list vis := [vpol 0 1 (-5); vpol 0 2 (-5); vpol 1 1 (-5); vpol 1 2 (-6); vpol 1 3 (-7)].
Example ex_recs_ok : Forall rec_ok ex_recs.
Proof. repeat apply Forall_cons; try apply Forall_nil; (split; [cbn; lia | split; [cbn; lia | cbn; unfold Qle; cbn; lia]]). Qed.
Example ex_reads : exists cs s, uv_selector (Some [Ent (Some (ij2bl 2 0)) true None; Ent (Some (ij2bl 1 3)) true None]) (Some [-5; -7]) = Ok cs /\
  srun (uv_fresh ex_recs) (map SSel cs) = Ok s /\
  nreads 4 (uv_rewind s) = [Some (vpol 0 2 (-5)); Some (vpol 1 3 (-7)); None; None].
Proof.
  destruct (C20_entries_select ex_recs [Ent (Some (ij2bl 2 0)) true None; Ent (Some (ij2bl 1 3)) true None] (Some [-5; -7]))
    as (cs & s & A & B & C); try discriminate.
  - apply ex_recs_ok.
  - repeat constructor; cbn [e_bl e_pol]; try discriminate; intros bl E; injection E as <-;
    [exists 2, 0 | exists 1, 3]; lia.
  - exists cs, s. split; auto. split; auto. rewrite (C 4%nat). reflexivity.
Qed.

Print Assumptions C19_channels_denoted.
Print Assumptions C19_all_channels.
Print Assumptions C19_nothing_else.
Print Assumptions C19_descending_end_refuted.
Print Assumptions C20_entries_denoted.
Print Assumptions C20_rejects.
Print Assumptions C20_entries_select.
Print Assumptions C20_polarisation_select.
Print Assumptions C20_string_to_records.
Print Assumptions C20_lone_group_refuted.
Print Assumptions C20_pol_not_swapped_refuted.
Print Assumptions C20_all_with_pol_refuted.
Print Assumptions C20_exclude_pol_refuted.
