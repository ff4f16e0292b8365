From Coq Require Import Ascii String.
From Verif Require Import Base ScriptModel ScriptSpec ScriptProofs PrmProofs SrcSpec SrcProofs2 ImgModel ImgSpec ImgProofs ImgProps FitsModel FitsSpec FitsProofs FitsProofs2 FitsProofs3.
Local Open Scope Z_scope.
Local Notation length := List.length.

(* ---- history ---- *)
Lemma intercalate_chars c ws w : In w ws -> In c w -> In c (intercalate ws).
Proof.
  induction ws as [|x r IH]; [intros []|]. intros [->|I] H; destruct r as [|y r]; cbn [intercalate]; auto; [apply in_or_app; auto|destruct I|].
  apply in_or_app. right. right. auto.
Qed.
Lemma cut_chars n w ps p c : cut n w ps -> In p ps -> In c p -> In c w.
Proof. intros [<- _] I H. apply in_concat. exists p. auto. Qed.
Lemma words_chars s ws ps n c p : words_of s ws -> Forall2 (cut n) ws ps -> In p (concat ps) -> In c p -> In c s.
Proof.
  intros [_ [<- _]] F I H. apply in_concat in I. destruct I as [l [I J]].
  assert (E : exists w, In w ws /\ cut n w l).
  { clear - F I. induction F as [|w q ws ps C F IH]; [destruct I|]. destruct I as [->|I]; [exists w; split; [left; reflexivity|exact C]|].
    destruct (IH I) as [v [A B]]. exists v. split; [right; exact A|exact B]. }
  destruct E as [w [A B]]. eapply intercalate_chars; [exact A|]. eapply cut_chars; eauto.
Qed.
Lemma spaced_chars c ws : In c (spaced ws) -> c = sp \/ exists w, In w ws /\ In c w.
Proof.
  unfold spaced. intros H. apply in_flat_map in H. destruct H as [w [I [<-|H]]]; [left; reflexivity|right; exists w; auto].
Qed.
Lemma laid_chars width l1 l2 ws lines l c : laid_out width l1 l2 ws lines -> In l lines -> In c l -> In c l1 \/ In c l2 \/ c = sp \/ exists w, In w ws /\ In c w.
Proof.
  intros (first & rest & -> & NE & -> & _) I H. destruct I as [<-|I].
  - apply in_app_or in H. destruct H as [H|H]; [auto|]. apply spaced_chars in H. destruct H as [->|[w [A B]]]; [auto|].
    right; right; right. exists w. split; [apply in_or_app; auto|auto].
  - apply in_map_iff in I. destruct I as [g [<- G]]. unfold later_line in H. apply in_app_or in H. destruct H as [H|H]; [auto|].
    assert (K : c = sp \/ exists w, In w g /\ In c w).
    { rewrite Forall_forall in NE. specialize (NE g G). destruct g as [|w0 g]; [contradiction|]. cbn in H. apply in_app_or in H. destruct H as [H|H]; [right; exists w0; cbn; auto|].
      apply spaced_chars in H. destruct H as [->|[w [A B]]]; [auto|]. right. exists w. cbn. auto. }
    destruct K as [->|[w [A B]]]; [auto|]. right; right; right. exists w. split; [apply in_or_app; right; apply in_concat; exists g; auto|auto].
Qed.
Lemma laid_printable width l1 l2 s ws ps n lines : words_of s ws -> Forall2 (cut n) ws ps -> laid_out width l1 l2 (concat ps) lines ->
  forallb printable l1 = true -> forallb printable l2 = true -> forallb printable s = true -> forallb (forallb printable) lines = true.
Proof.
  rewrite !forallb_forall. intros W F L A B C l I. apply forallb_forall. intros c K.
  destruct (laid_chars _ _ _ _ _ _ _ L I K) as [H|[H|[->|[w [H H2]]]]]; auto. apply C. eapply words_chars; eauto.
Qed.
Lemma hist_cards_cut l : l <> [] -> cut 72 l (hist_cards l).
Proof.
  intros H. unfold hist_cards. destruct (Nat.leb_spec (length l) 72) as [L|L].
  - unfold cut. cbn. rewrite app_nil_r. repeat split. constructor; [|constructor]. destruct l; [contradiction|cbn in *; lia].
  - apply chunk_spec. lia.
Qed.
Lemma hash_starts s : begins "#" s = true <-> hd_error s = Some "#"%char.
Proof. unfold begins. rewrite starts_app. destruct s as [|c s]; cbn; [split; [intros [r K]; discriminate|discriminate]|]. split; [intros [r [= -> _]]; reflexivity|intros [= ->]; exists s; reflexivity]. Qed.
Lemma laid_nonempty width l1 l2 ws lines : l1 <> [] -> l2 <> [] -> laid_out width l1 l2 ws lines -> Forall (fun l => l <> []) lines.
Proof.
  intros A B (first & rest & _ & _ & -> & _). constructor; [destruct l1; [contradiction|discriminate]|]. apply Forall_forall. intros x H.
  apply in_map_iff in H. destruct H as [g [<- _]]. unfold later_line. destruct l2; [contradiction|discriminate].
Qed.
Lemma line_cards_ok s : forallb printable s = true -> exists cards, line_cards 1 s = Ok cards /\ line_cards_are s cards.
Proof.
  intros P. unfold line_cards. destruct (Nat.leb_spec (length s) 1) as [L|L]; [exists []; split; [reflexivity|constructor; exact L]|].
  destruct (begins "#" s) eqn:B.
  - destruct (C36_word_wrap s 80 1 1 []) as (ws & ps & lines & W & F & E & LO & _); [vm_compute; discriminate|]. rewrite E. cbn [bind].
    change (repeat sp (Z.to_nat 1)) with [sp] in LO. cbn [app] in LO. change (Z.to_nat 80) with 80%nat in LO.
    rewrite (laid_printable _ _ _ _ _ _ _ _ W F LO) by (auto; reflexivity).
    exists (flat_map hist_cards lines). split; [reflexivity|]. rewrite flat_map_concat_map.
    eapply lc_comment; [lia|apply hash_starts, B|exact W|exact F|exact LO|].
    assert (N : Forall (fun l => l <> []) lines) by (eapply laid_nonempty; [| |exact LO]; discriminate).
    clear - N. induction N; cbn; constructor; auto. apply hist_cards_cut. assumption.
  - destruct (C36_word_wrap s 70 5 10 (lit "#")) as (ws & ps & lines & W & F & E & LO & LN); [vm_compute; discriminate|]. rewrite E. cbn [bind].
    change (lit "#" ++ repeat sp (Z.to_nat 5)) with lead5 in LO. change (lit "#" ++ repeat sp (Z.to_nat 10)) with lead10 in LO. change (Z.to_nat 70) with 70%nat in LO.
    rewrite (laid_printable _ _ _ _ _ _ _ _ W F LO) by (auto; reflexivity).
    assert (X : flat_map hist_cards lines = lines).
    { clear - LN. induction LN as [|l r H N IH]; [reflexivity|]. cbn [flat_map]. rewrite IH. unfold hist_cards.
      destruct (Nat.leb_spec (length l) 72); [reflexivity|lia]. }
    rewrite X. exists lines. split; [reflexivity|]. eapply lc_words; [lia| |exact W|exact F|exact LO|].
    + intros K. apply hash_starts in K. congruence.
    + eapply Forall_impl; [|exact LN]. cbn. lia.
Qed.
Lemma strip_printable s : (forall c, In c s -> printable c = true \/ c = nl) -> ~ In nl s -> forallb printable (strip s) = true.
Proof.
  intros H N. apply forallb_forall. intros c I. destruct (strip_split s) as (a & b & _ & _ & E).
  assert (J : In c s) by (rewrite E; apply in_or_app; right; apply in_or_app; left; exact I).
  destruct (H c J) as [K| ->]; [exact K|contradiction].
Qed.
Lemma history_ok text : (forall c, In c text -> printable c = true \/ c = nl) -> exists cards, history_cards 1 text = Ok cards /\ history_is text cards.
Proof.
  intros H. unfold history_cards.
  assert (X : forall l, Forall (free nl) l -> (forall s c, In s l -> In c s -> printable c = true \/ c = nl) ->
     exists per, map_res (fun h => line_cards 1 (strip h)) l = Ok per /\ Forall2 line_cards_are (map strip l) per).
  { induction l as [|s l IH]; intros F G; [exists []; split; [reflexivity|constructor]|]. inversion F as [|x y F1 F2]; subst.
    destruct IH as [per [E1 E2]]; [exact F2|intros t c I; apply G; right; exact I|].
    destruct (line_cards_ok (strip s)) as [cs [E3 E4]]; [apply strip_printable; [intros c I; apply (G s); [left; reflexivity|exact I]|exact F1]|].
    exists (cs :: per). cbn [map_res]. rewrite E3. cbn [bind]. rewrite E1. cbn. split; [reflexivity|constructor; assumption]. }
  destruct (X (split nl text)) as [per [E1 E2]].
  - apply split_pieces.
  - intros s c I J. apply H. rewrite <- (join_split nl text). revert I. generalize (split nl text). intros l I. clear - I J.
    induction l as [|x [|y r] IH]; [destruct I|destruct I as [->|[]]; exact J|]. cbn [join]. apply in_or_app. destruct I as [->|I]; [left; exact J|right; right; apply IH, I].
  - exists (concat per). split.
    + destruct text as [|c t]; [cbn in E1|rewrite E1; reflexivity]. injection E1 as <-. reflexivity.
    + exists (split nl text), (map strip (split nl text)), per. split; [symmetry; apply join_split|]. split; [apply split_pieces|]. split; [|split; [exact E2|reflexivity]].
      generalize (split nl text). intros l. induction l as [|s l IH]; cbn; constructor; [apply trimmed_iff; reflexivity|exact IH].
Qed.

Lemma axis_values_vd V zero one opp pos a ax v d : axis_values V zero one opp pos a ax v d <-> (v, d) = axis_vd V zero one opp pos a ax.
Proof.
  split.
  2:{ intros E. pose proof (axis_vd_spec V zero one opp pos a ax) as S. rewrite <- E in S. exact S. }
  unfold axis_values, axis_vd, leftward. rewrite <- !begins_axis.
  intros [[H [-> ->]]|[[H [-> ->]]|[[H [-> ->]]|[[H [-> ->]]|[H [-> ->]]]]]].
  - destruct H as [H|H]; rewrite H; cbn [orb]; rewrite ?orb_true_r; reflexivity.
  - assert (E : begins "ra" (lower ax) = false /\ begins "glon" (lower ax) = false).
    { destruct H as [H|H].
      - split; eapply begins_dec_glat; try exact H; cbn; auto 10.
      - split; [eapply begins_dec_glat; try exact H; cbn; auto 10|]. unfold begins in H. apply FitsProofs.starts_app in H. destruct H as [r E]. unfold begins. rewrite E. reflexivity. }
    destruct E as [-> ->]. cbn [orb andb]. destruct H as [-> | ->]; rewrite ?orb_true_r; reflexivity.
  - rewrite (begins_dec_glat "freq" "ra"), (begins_dec_glat "freq" "glon"), (begins_dec_glat "freq" "dec"), (begins_dec_glat "freq" "glat") by (cbn; auto 10).
    rewrite H. reflexivity.
  - assert (F : forall q c r, list_ascii_of_string q = c :: r -> c <> "s"%char -> begins q (lower ax) = false).
    { intros q c r E N. eapply (begins_first "stokes" q); [reflexivity|exact E|congruence|exact H]. }
    rewrite (F "ra"%string _ _ eq_refl), (F "glon"%string _ _ eq_refl), (F "dec"%string _ _ eq_refl), (F "glat"%string _ _ eq_refl), (F "freq"%string _ _ eq_refl) by discriminate.
    rewrite H. reflexivity.
  - repeat match type of H with Forall _ _ => inversion_clear H as [|?x ?y H0 H1]; apply begins_axis_false in H0; rewrite H0; clear H0; rename H1 into H end. reflexivity.
Qed.
