From Coq Require Import QArith Ascii String.
From Verif Require Import Base BaselineModel SelModel ScriptModel ScriptSpec.
Open Scope Z_scope.
Ltac Zify.zify_post_hook ::= idtac.

Lemma ceqb_eq a b : ceqb a b = true <-> a = b.
Proof. unfold ceqb. apply Ascii.eqb_eq. Qed.
Lemma ceqb_refl a : ceqb a a = true.
Proof. apply ceqb_eq; auto. Qed.
Lemma ceqb_neq a b : a <> b -> ceqb a b = false.
Proof. intros H. destruct (ceqb a b) eqn:E; auto. apply ceqb_eq in E. contradiction. Qed.

(* ---- split and join ---- *)
Lemma split_ne c s : split c s <> [].
Proof. destruct s as [|x s]; simpl; [discriminate|]. destruct (ceqb x c); [discriminate|]. destruct (split c s); discriminate. Qed.
Lemma join_split c s : join c (split c s) = s.
Proof.
  induction s as [|x s IH]; auto. simpl. destruct (ceqb x c) eqn:E.
  - apply ceqb_eq in E. subst x. assert (N := split_ne c s). destruct (split c s) as [|h t]; [congruence|].
    simpl. simpl in IH. rewrite IH. reflexivity.
  - assert (N := split_ne c s). destruct (split c s) as [|h t]; [congruence|].
    simpl in *. destruct t; simpl in *; congruence.
Qed.
Definition free (c : ascii) (s : str) : Prop := ~ In c s.
Lemma split_free c s : free c s -> split c s = [s].
Proof.
  induction s as [|x s IH]; intros H; auto. simpl.
  rewrite ceqb_neq by (intros ->; apply H; left; auto).
  rewrite IH by (intros K; apply H; right; auto). auto.
Qed.
Lemma split_app c s t : free c s -> split c (s ++ c :: t) = s :: split c t.
Proof.
  induction s as [|x s IH]; intros H; simpl.
  - rewrite ceqb_refl. auto.
  - rewrite ceqb_neq by (intros ->; apply H; left; auto).
    rewrite IH by (intros K; apply H; right; auto). auto.
Qed.
Lemma split_join c l : l <> [] -> Forall (free c) l -> split c (join c l) = l.
Proof.
  intros N F. induction F as [|s l Fs F IH]; [congruence|].
  destruct l as [|t l]; simpl.
  - apply split_free; auto.
  - rewrite split_app by auto. f_equal. apply IH. discriminate.
Qed.

(* ---- numerals ---- *)
Lemma cval_digit d : 0 <= d <= 9 -> cval (digit_of d) = 48 + d.
Proof.
  intros H. unfold cval, digit_of. rewrite N_ascii_embedding by lia. rewrite Z2N.id by lia. lia.
Qed.
Lemma is_digit_of d : 0 <= d <= 9 -> is_digit (digit_of d) = true.
Proof. intros H. unfold is_digit. rewrite cval_digit by auto. apply andb_true_iff. rewrite !Z.leb_le. lia. Qed.
Lemma of_digit c : is_digit c = true -> exists d, 0 <= d <= 9 /\ c = digit_of d /\ cval c - 48 = d.
Proof.
  unfold is_digit. rewrite andb_true_iff, !Z.leb_le. intros H. exists (cval c - 48). split; [lia|]. split; auto.
  unfold digit_of. replace (48 + (cval c - 48)) with (cval c) by lia. unfold cval. rewrite N2Z.id.
  rewrite ascii_N_embedding. auto.
Qed.
Lemma horner_app s t acc : horner acc (s ++ t) = bind (horner acc s) (fun m => horner m t).
Proof. revert acc. induction s as [|c s IH]; intros acc; simpl; auto. destruct (is_digit c); auto. Qed.

Lemma digits_horner s n : digits s n -> horner 0 s = Ok n /\ s <> [] /\ forallb is_digit s = true /\ 0 <= n.
Proof.
  induction 1 as [d Hd | s n d H IH Hd].
  - cbn [horner forallb]. rewrite is_digit_of, cval_digit by auto. split; [f_equal; lia|].
    split; [discriminate|]. split; [reflexivity|lia].
  - destruct IH as (A & B & C & D). rewrite horner_app, A. cbn [bind horner]. rewrite is_digit_of, cval_digit by auto.
    rewrite forallb_app, C. cbn [forallb]. rewrite is_digit_of by auto. split; [f_equal; lia|].
    split; [destruct s; discriminate|]. split; auto. lia.
Qed.
Lemma horner_digits s : forall n, s <> [] -> horner 0 s = Ok n -> digits s n.
Proof.
  induction s as [|c s IH] using rev_ind; intros n N H; [congruence|].
  rewrite horner_app in H. destruct (horner 0 s) as [m|] eqn:E; cbn [bind horner] in H; [|discriminate].
  destruct (is_digit c) eqn:D; [|discriminate]. injection H as <-.
  destruct (of_digit c D) as (d & Hd & -> & ->).
  destruct s as [|x s].
  - simpl in E. injection E as <-. replace (10 * 0 + d) with d by lia. apply (dg_one d Hd).
  - apply dg_snoc; auto. apply IH; auto. discriminate.
Qed.
Lemma nat_lit_digits s n : nat_lit s = Ok n <-> digits s n.
Proof.
  split.
  - unfold nat_lit. destruct s; [discriminate|]. intros H. apply horner_digits; auto. discriminate.
  - intros H. destruct (digits_horner s n H) as (A & B & _). unfold nat_lit. destruct s; [congruence|auto].
Qed.

Lemma digit_cases c : is_digit c = true -> is_space c = false /\ 48 <= cval c <= 57.
Proof.
  unfold is_digit, is_space. rewrite andb_true_iff, !Z.leb_le. intros H. split; auto.
  rewrite orb_false_iff, !andb_false_iff, !Z.leb_gt. lia.
Qed.
Lemma digits_in s n c : digits s n -> In c s -> is_digit c = true.
Proof. intros H I. destruct (digits_horner s n H) as (_ & _ & F & _). rewrite forallb_forall in F. auto. Qed.

Lemma is_space_iff c : is_space c = true <-> blank_char c.
Proof.
  unfold is_space, blank_char, cval. rewrite orb_true_iff, !andb_true_iff, !Z.leb_le. cbn [In]. split; [lia|].
  intros H. repeat destruct H as [H|H]; try contradiction; rewrite <- H; lia.
Qed.
Lemma skip_blank a s : blank a -> skip_spaces (a ++ s) = skip_spaces s.
Proof. induction 1 as [|c a Hc H IH]; auto. simpl. apply is_space_iff in Hc. rewrite Hc. auto. Qed.
Lemma skip_non s : match s with [] => True | c :: _ => is_space c = false end -> skip_spaces s = s.
Proof. destruct s as [|c s]; auto. simpl. intros ->. auto. Qed.
Lemma blank_rev a : blank a -> blank (rev a).
Proof. apply Forall_rev. Qed.
(* s starts and ends with a character that is not a blank *)
Lemma strip_core a s b : blank a -> blank b ->
  match s with [] => False | c :: _ => is_space c = false end ->
  match rev s with [] => False | c :: _ => is_space c = false end ->
  strip (a ++ s ++ b) = s.
Proof.
  intros A B S1 S2. unfold strip. rewrite skip_blank by auto.
  rewrite (skip_non (s ++ b)) by (destruct s; [contradiction|auto]).
  rewrite rev_app_distr, skip_blank by (apply blank_rev; auto).
  rewrite skip_non by (destruct (rev s); auto). apply rev_involutive.
Qed.
Lemma skip_split s : exists a, blank a /\ s = a ++ skip_spaces s /\
  match skip_spaces s with [] => True | c :: _ => is_space c = false end.
Proof.
  induction s as [|c s IH]; simpl.
  - exists []. repeat constructor.
  - destruct (is_space c) eqn:E.
    + destruct IH as (a & A & B & C). exists (c :: a). split; [constructor; auto; apply is_space_iff; auto|]. split; auto. simpl. congruence.
    + exists []. split; [constructor|]. auto.
Qed.
Lemma strip_split s : exists a b, blank a /\ blank b /\ s = a ++ strip s ++ b.
Proof.
  unfold strip. destruct (skip_split s) as (a & A & E & _).
  destruct (skip_split (rev (skip_spaces s))) as (b & B & E2 & _).
  exists a, (rev b). split; auto. split; [apply blank_rev; auto|].
  rewrite <- rev_app_distr, <- E2, rev_involutive. exact E.
Qed.

Lemma digits_ends s n : digits s n ->
  match s with [] => False | c :: _ => is_space c = false /\ is_digit c = true end /\
  match rev s with [] => False | c :: _ => is_space c = false end.
Proof.
  intros H. destruct (digits_horner s n H) as (_ & N & F & _). rewrite forallb_forall in F. split.
  - destruct s as [|c s]; [congruence|]. assert (D : is_digit c = true) by (apply F; left; auto).
    split; auto. apply digit_cases; auto.
  - destruct (rev s) as [|c r] eqn:E.
    + apply N. rewrite <- (rev_involutive s), E. auto.
    + apply digit_cases. apply F. apply in_rev. rewrite E. left; auto.
Qed.
Lemma digit_not c d : is_digit c = true -> is_digit d = false -> ceqb c d = false.
Proof. intros A B. apply ceqb_neq. intros ->. congruence. Qed.

Lemma py_int_numeral s n : numeral s n -> py_int s = Ok n.
Proof.
  intros H. destruct H as [a s b n A B D | a s b n A B D | a s b n A B D]; destruct (digits_ends s n D) as [E1 E2]; unfold py_int.
  - rewrite (strip_core a s b); auto. 2:{ destruct s; [contradiction|tauto]. }
    destruct s as [|c s]; [contradiction|]. destruct E1 as [_ E1].
    rewrite !digit_not by auto. apply nat_lit_digits; auto.
  - change (a ++ "+"%char :: s ++ b) with (a ++ ("+"%char :: s) ++ b).
    rewrite (strip_core a ("+"%char :: s) b); auto. 
    + simpl ceqb. apply nat_lit_digits; auto.
    + simpl. destruct (rev s); [contradiction|]. simpl. auto.
  - change (a ++ "-"%char :: s ++ b) with (a ++ ("-"%char :: s) ++ b).
    rewrite (strip_core a ("-"%char :: s) b); auto.
    + simpl ceqb. apply nat_lit_digits in D. cbv beta iota. rewrite D. reflexivity.
    + simpl. destruct (rev s); [contradiction|]. simpl. auto.
Qed.
Lemma numeral_py_int s n : py_int s = Ok n -> numeral s n.
Proof.
  intros H. unfold py_int in H. destruct (strip_split s) as (a & b & A & B & E). rewrite E.
  destruct (strip s) as [|c r]; [discriminate|].
  destruct (ceqb c "-"%char) eqn:C1.
  - apply ceqb_eq in C1. subst c. destruct (nat_lit r) as [m|] eqn:N; simpl in H; [|discriminate]. injection H as <-.
    apply nu_neg; auto. apply nat_lit_digits; auto.
  - destruct (ceqb c "+"%char) eqn:C2.
    + apply ceqb_eq in C2. subst c. apply nu_plus; auto. apply nat_lit_digits; auto.
    + apply nu_pos; auto. apply nat_lit_digits; auto.
Qed.

(* characters of a numeral *)
Definition num_char (c : ascii) : bool := is_digit c || is_space c || ceqb c "+"%char || ceqb c "-"%char.
Lemma numeral_chars s n c : numeral s n -> In c s -> num_char c = true.
Proof.
  assert (K : forall a, blank a -> In c a -> num_char c = true).
  { intros a A I. unfold blank in A. rewrite Forall_forall in A. unfold num_char. rewrite (proj2 (is_space_iff c) (A _ I)). rewrite orb_true_r. auto. }
  assert (K2 : forall s n, digits s n -> In c s -> num_char c = true).
  { intros s0 n0 D I. unfold num_char. rewrite (digits_in _ _ _ D I). auto. }
  intros H I. destruct H as [a s b n A B D | a s b n A B D | a s b n A B D]; apply in_app_or in I as [I|I]; eauto.
  - apply in_app_or in I as [I|I]; eauto.
  - destruct I as [<-|I]; [reflexivity|]. apply in_app_or in I as [I|I]; eauto.
  - destruct I as [<-|I]; [reflexivity|]. apply in_app_or in I as [I|I]; eauto.
Qed.
Lemma numeral_free s n c : numeral s n -> num_char c = false -> free c s.
Proof. intros H C I. rewrite (numeral_chars s n c H I) in C. discriminate. Qed.
Lemma numeral_ne s n : numeral s n -> s <> [].
Proof.
  intros H. destruct H as [a s b n A B D | a s b n A B D | a s b n A B D]; destruct a; try discriminate.
  destruct (digits_horner s n D) as (_ & N & _). destruct s; [congruence | discriminate].
Qed.

(* ---- channels ---- *)
Lemma map_res_ok {A B} (f : A -> res B) l m : Forall2 (fun x y => f x = Ok y) l m -> map_res f l = Ok m.
Proof. induction 1 as [|x y l m H F IH]; auto. simpl. rewrite H, IH. auto. Qed.
Lemma map_res_inv {A B} (f : A -> res B) l : forall m, map_res f l = Ok m -> Forall2 (fun x y => f x = Ok y) l m.
Proof.
  induction l as [|x l IH]; intros m H; simpl in H.
  - injection H as <-. constructor.
  - destruct (f x) as [y|] eqn:E; simpl in H; [|discriminate]. destruct (map_res f l) as [ys|]; simpl in H; [|discriminate].
    injection H as <-. constructor; auto.
Qed.

Lemma nth_map_seq (f : nat -> Z) n i : nth_error (map f (seq 0 n)) i = if (i <? n)%nat then Some (f i) else None.
Proof.
  destruct (Nat.ltb_spec i n).
  - rewrite (map_nth_error f i (seq 0 n) (d := i)); auto.
    rewrite (nth_error_nth' _ 0%nat) by (rewrite seq_length; auto). rewrite seq_nth by auto. auto.
  - apply nth_error_None. rewrite map_length, seq_length. auto.
Qed.

Lemma arange_upto a b k l : k <> 0 -> arange a (b + 1) k = Ok l -> upto a b k l.
Proof.
  intros K H. unfold arange in H. destruct (Z.eqb_spec k 0); [contradiction|]. injection H as <-. clear n.
  set (n := - ((a - (b + 1)) / k)).
  assert (N : forall i : nat, (i < Z.to_nat n)%nat <-> (0 < k /\ a + k * Z.of_nat i <= b) \/ (k < 0 /\ b + 1 < a + k * Z.of_nat i)).
  { intros i. transitivity (Z.of_nat i < n); [lia|]. unfold n.
    assert (M := Z.div_mod (a - (b + 1)) k K). set (q := (a - (b + 1)) / k) in *.
    destruct (Z.lt_total k 0) as [L|[L|L]]; [|lia|].
    - assert (R := Z.mod_neg_bound (a - (b + 1)) k L). set (r := (a - (b + 1)) mod k) in *. clearbody q r.
      split; intros; [right; split; nia | nia].
    - assert (R := Z.mod_pos_bound (a - (b + 1)) k L). set (r := (a - (b + 1)) mod k) in *. clearbody q r.
      split; intros; [left; split; nia | nia]. }
  split.
  - intros i x. rewrite nth_map_seq. destruct (i <? _)%nat; [|discriminate]. intros E. injection E as <-. auto.
  - intros i. rewrite nth_map_seq. rewrite <- N. destruct (Nat.ltb_spec i (Z.to_nat n)); split; intros; auto; try congruence; try lia.
Qed.

Lemma chan_term_ok co c : forall l,
  match c with One n => co = [n] | Range a b => co = [a; b] | Step a b k => co = [a; b; k] /\ k <> 0 end ->
  chan_term co = Ok l -> chan_list c l.
Proof.
  intros l H E. destruct c as [n | a b | a b k]; simpl.
  - subst. simpl in E. congruence.
  - subst. apply arange_upto; auto. lia.
  - destruct H as [-> K]. apply arange_upto; auto.
Qed.


Lemma join_free c d l : c <> d -> Forall (free c) l -> free c (join d l).
Proof.
  intros N F. induction F as [|s l Fs F IH]; [intros []|]. destruct l as [|t l]; auto.
  change (join d (s :: t :: l)) with (s ++ d :: join d (t :: l)).
  intros I. apply in_app_or in I as [I|[I|I]]; auto.
Qed.

Lemma chan_text_parse s c : chan_text s c ->
  free ","%char s /\ s <> [] /\ starts (lit "all") s = false /\
  exists l, bind (map_res py_int (split "_"%char s)) chan_term = Ok l /\ chan_list c l.
Proof.
  assert (HD : forall s n, numeral s n -> forall t, starts (lit "all") (s ++ t) = false).
  { intros s0 n0 H0 t. assert (N := numeral_ne _ _ H0). destruct s0 as [|x s0]; [congruence|]. unfold lit. cbn [list_ascii_of_string starts app].
    assert (C := numeral_chars _ _ x H0 (or_introl eq_refl)).
    destruct (ceqb "a"%char x) eqn:E; auto. apply ceqb_eq in E. subst x. discriminate C. }
  intros H. destruct H as [s n H | s t a b H1 H2 | s t u a b k H1 H2 H3 K].
  - split; [eapply numeral_free; eauto|]. split; [eapply numeral_ne; eauto|].
    split; [rewrite <- (app_nil_r s); eapply HD; eauto|].
    rewrite split_free by (eapply numeral_free; eauto). simpl. rewrite (py_int_numeral _ _ H). simpl. eexists. split; reflexivity.
  - assert (F : forall c, num_char c = false -> Forall (free c) [s; t]).
    { intros c Hc. repeat (apply Forall_cons; [eapply numeral_free; eassumption|]). apply Forall_nil. }
    split; [apply join_free; [discriminate|auto]|]. split.
    { simpl. assert (N := numeral_ne _ _ H1). destruct s; [congruence|discriminate]. }
    split; [simpl; eapply HD; eauto|].
    rewrite split_join by (auto; discriminate). simpl. rewrite (py_int_numeral _ _ H1), (py_int_numeral _ _ H2). simpl.
    eexists. split; [reflexivity|]. apply arange_upto; [lia|]. reflexivity.
  - assert (F : forall c, num_char c = false -> Forall (free c) [s; t; u]).
    { intros c Hc. repeat (apply Forall_cons; [eapply numeral_free; eassumption|]). apply Forall_nil. }
    split; [apply join_free; [discriminate|auto]|]. split.
    { simpl. assert (N := numeral_ne _ _ H1). destruct s; [congruence|discriminate]. }
    split; [simpl; eapply HD; eauto|].
    rewrite split_join by (auto; discriminate). simpl.
    rewrite (py_int_numeral _ _ H1), (py_int_numeral _ _ H2), (py_int_numeral _ _ H3). simpl.
    destruct (arange a (b + 1) k) as [l|] eqn:E.
    + exists l. split; auto. apply arange_upto; auto.
    + unfold arange in E. destruct (Z.eqb_spec k 0); [contradiction | discriminate].
Qed.


Theorem parse_chans_accepts texts items nchan : texts <> [] -> Forall2 chan_text texts items ->
  exists ls, parse_chans_list (join ","%char texts) nchan = Ok ls /\ Forall2 chan_list items ls /\
    parse_chans (join ","%char texts) nchan = Ok (List.concat ls).
Proof.
  intros N F.
  assert (A : Forall (fun s => free ","%char s /\ s <> [] /\ starts (lit "all") s = false) texts).
  { clear N. induction F as [|s c l m H F IH]; constructor; auto. destruct (chan_text_parse s c H) as (X & Y & Z & _). auto. }
  assert (SA : starts (lit "all") (join ","%char texts) = false).
  { destruct A as [|s l (X & Y & Z) A]; [congruence|]. destruct s as [|x s]; [congruence|].
    assert (XA : x <> "a"%char).
    { intros ->. inversion F as [|? ? ? ? H F']; subst.
      assert (HC : num_char "a"%char = true); [|discriminate].
      remember ("a"%char :: s) as w. destruct H as [w n H | w t a b H1 H2 | w t u a b k H1 H2 H3 K].
      - eapply numeral_chars; eauto. rewrite Heqw. left; auto.
      - eapply numeral_chars; [exact H1|]. simpl in Heqw. assert (NN := numeral_ne _ _ H1). destruct w; [congruence|].
        injection Heqw as -> _. left; auto.
      - eapply numeral_chars; [exact H1|]. simpl in Heqw. assert (NN := numeral_ne _ _ H1). destruct w; [congruence|].
        injection Heqw as -> _. left; auto. }
    destruct l as [|t l].
    - cbn [join]. unfold lit. cbn [list_ascii_of_string starts app]. rewrite ceqb_neq by congruence. auto.
    - cbn [join]. unfold lit. cbn [list_ascii_of_string starts app]. rewrite ceqb_neq by congruence. auto. }
  assert (E : exists ls, map_res (fun co => bind (map_res py_int (split "_"%char co)) chan_term) texts = Ok ls /\ Forall2 chan_list items ls).
  { clear -F. induction F as [|s c l m H F IH].
    - exists []. split; auto.
    - destruct (chan_text_parse s c H) as (_ & _ & _ & x & E & C). destruct IH as (ls & E2 & C2).
      exists (x :: ls). cbn [map_res]. rewrite E. cbn [bind]. rewrite E2. cbn [bind]. split; auto. }
  destruct E as (ls & E & C). exists ls.
  assert (G : parse_chans_list (join ","%char texts) nchan = Ok ls).
  { unfold parse_chans_list. rewrite SA. rewrite split_join; auto.
    eapply Forall_impl; [|exact A]. simpl. tauto. }
  split; auto. split; auto. unfold parse_chans. rewrite G. reflexivity.
Qed.

Theorem parse_chans_only s nchan ls : parse_chans_list s nchan = Ok ls ->
  (starts (lit "all") s = true /\ ls = [zrange 0 nchan]) \/
  exists texts items, s = join ","%char texts /\ Forall2 chan_text texts items /\ Forall2 chan_list items ls.
Proof.
  unfold parse_chans_list. destruct (starts (lit "all") s) eqn:A.
  - intros H. injection H as <-. left; auto.
  - intros H. right. apply map_res_inv in H. exists (split ","%char s).
    assert (K : exists items, Forall2 chan_text (split ","%char s) items /\ Forall2 chan_list items ls).
    { clear A. induction H as [|co l cs ls E F IH].
      - exists []. split; constructor.
      - destruct IH as (items & I1 & I2).
        destruct (map_res py_int (split "_"%char co)) as [zs|] eqn:M; simpl in E; [|discriminate].
        apply map_res_inv in M. assert (J := join_split "_"%char co).
        assert (Q : exists c, chan_text co c /\ match c with One n => zs = [n] | Range a b => zs = [a; b] | Step a b k => zs = [a; b; k] /\ k <> 0 end).
        { destruct zs as [|a [|b [|k [|? ?]]]]; try discriminate E.
          - inversion M as [|? ? ? ? P1 M1]; subst. inversion M1; subst.
            exists (One a). split; auto. rewrite <- J. rewrite <- H. simpl. constructor. apply numeral_py_int; auto.
          - inversion M as [|? ? ? ? P1 M1]; subst. inversion M1 as [|? ? ? ? P2 M2]; subst. inversion M2; subst.
            exists (Range a b). split; auto. rewrite <- J. rewrite <- H. constructor; apply numeral_py_int; auto.
          - inversion M as [|? ? ? ? P1 M1]; subst. inversion M1 as [|? ? ? ? P2 M2]; subst.
            inversion M2 as [|? ? ? ? P3 M3]; subst. inversion M3; subst.
            assert (k <> 0). { intros ->. simpl in E. discriminate. }
            exists (Step a b k). split; [|split; auto]. rewrite <- J. rewrite <- H. constructor; auto; apply numeral_py_int; auto. }
        destruct Q as (c & Q1 & Q2). exists (c :: items). split; constructor; auto.
        eapply chan_term_ok; eauto. }
    destruct K as (items & K1 & K2). exists items. split; [symmetry; apply join_split|]. auto.
Qed.
