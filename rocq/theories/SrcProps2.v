(* C62: catalogue files are read row by row into the sources they list. *)
From Coq Require Import Reals Ascii String Lra FinFun.
From Verif Require Import Base CleanModel ParamModel ParamProofs ScriptModel ScriptSpec ScriptProofs CatModel CatProofs SrcModel SrcSpec SrcProofs SrcProofs2 SrcProofs3.
Local Open Scope R_scope.
Local Notation length := List.length.
Ltac Zify.zify_post_hook ::= idtac.
Section Files.
Variable num : str -> option R.

(* the tables from Vizier: a file is read exactly if every row has the columns and a number for the
   flux, and gives then the source of each row: position, name, flux and frequency *)
Ltac table_tac := (apply table_iff; intros t l' _; apply row_iff; cbn [l_ra l_dec l_name l_jys l_unit l_mfreq];
  [lra|intros b ra dec _ _ _ _; apply named_column|unfold jansky, milli; lra|lra]).
Theorem C62_tables lines l :
  (three_c num lines = Ok l <-> table (source num 0 1 9 (in_column 2) jansky (159 / 1000)) lines l) /\
  (three_cr num lines = Ok l <-> table (source num 0 1 7 (in_column 2) jansky (178 / 1000)) lines l) /\
  (four_c num lines = Ok l <-> table (source num 0 1 5 (in_column 2) jansky (178 / 1000)) lines l) /\
  (gbsix num lines = Ok l <-> table (source num 0 1 8 (in_column 18) milli (485 / 100)) lines l) /\
  (nvss num lines = Ok l <-> table (source num 3 4 7 (in_column 2) milli (14 / 10)) lines l) /\
  (vlss num lines = Ok l <-> table (source num 3 4 5 (in_column 2) jansky (74 / 1000)) lines l) /\
  (wenss num lines = Ok l <-> table (source num 4 5 9 (in_column 2) milli (33 / 100)) lines l).
Proof. repeat split; try table_tac. Qed.
(* 6C and 7C sources are named by their position; for 7C the newline is taken off first *)
Lemma by_position_iff t b ra dec : b_ra b = colons ra -> b_dec b = colons dec -> by_position t b <-> b_name b = colons ra ++ lit "_" ++ colons dec.
Proof. intros A B. unfold by_position. rewrite A, B. reflexivity. Qed.
Theorem C62_named_by_position lines l :
  (six_c num lines = Ok l <-> table (source num 0 1 4 by_position jansky (151 / 1000)) lines l) /\
  (seven_c num lines = Ok l <-> reads (no_row chomped 4 eq) (table_row chomped 4 eq (source num 0 1 5 by_position jansky (151 / 1000))) lines l).
Proof.
  split.
  - apply table_iff. intros t l' _. apply row_iff; cbn [l_ra l_dec l_name l_jys l_unit l_mfreq]; [lra| |unfold jansky; lra|lra].
    intros b ra dec _ _ A B. apply by_position_iff; auto.
  - unfold seven_c. apply tsv_iff; [unfold id_str; tauto|apply chomped_iff|]. intros t l' _.
    apply row_iff; cbn [l_ra l_dec l_name l_jys l_unit l_mfreq]; [lra| |unfold jansky; lra|lra]. intros b ra dec _ _ A B. apply by_position_iff; auto.
Qed.
Theorem C62_parkes lines l : parkes num lines = Ok l <-> table (parkes_row num) lines l.
Proof. apply table_iff. intros. apply parkes_row_iff; auto. Qed.
Theorem C62_txs lines l : txs num lines = Ok l <-> table (txs_row num) lines l.
Proof. apply table_iff. intros. apply txs_row_iff; auto. Qed.
Theorem C62_culgoora lines l : culgoora num lines = Ok l <-> table (culgoora_row num) lines l.
Proof. apply table_iff. intros. apply culgoora_row_iff; auto. Qed.
Theorem C62_paper lines l : paper num lines = Ok l <-> reads (no_row eq 3 trimmed) (table_row eq 3 trimmed (paper_row num)) lines l.
Proof.
  unfold paper. rewrite <- (map_id (data_lines lines)). apply (tsv_iff 3 strip _ _ (fun x => x)); [intros; apply trimmed_iff|tauto|]. intros. apply paper_row_iff; auto.
Qed.
(* the MRT list: a row for every line after the fourth, blank lines not allowed *)
Theorem C62_mrt lines l : mrt num lines = Ok l <-> Forall2 (mrt_row num) (skipn 4 lines) l.
Proof.
  unfold mrt. rewrite map_res_ok.
  assert (H : forall L b, (match words L with s :: ra :: dec :: j :: _ => bind (float num j) (fun j => Ok (Body s ra dec (Some j) (Law 0) (150 / 1000))) | _ => Err end = Ok b) <-> mrt_row num L b).
  { intros L b. unfold mrt_row, flat. split.
    - destruct (words L) as [|s [|ra [|dec [|jt more]]]] eqn:W; try discriminate. unfold float. destruct (num jt) as [j|] eqn:N; [|discriminate]. cbn [bind]. intros [= <-].
      exists jt, j, more. cbn [b_name b_ra b_dec b_jys b_spec b_mfreq]. split; [apply words_iff; auto|]. repeat split; auto. lra.
    - intros (jt & j & more & W & N & J & S & M). apply words_iff in W. rewrite W. unfold float. rewrite N. cbn [bind]. destruct b; cbn in *. subst. f_equal. replace (150 / 1000) with (15 / 100) by lra. auto. }
  split; intros F; (induction F; constructor; auto; apply H; auto).
Qed.

(* ---- Helmboldt ---- *)
(* what was read: one source for each name, placed by the last line of that name in the position
   file and with the spectrum of its only line in the file of fits *)
Theorem C62_helmboldt m pos fit l m' : helm num m pos fit = Ok (l, m') ->
  NoDup (map b_name l) /\
  (forall k, In k (map b_name l) <-> of_name k pos <> []) /\
  (forall b, In b l -> b_mfreq b = 74 / 1000 /\
     (exists before L, of_name (b_name b) pos = before ++ [L] /\ placed_by L b) /\
     (exists L, of_name (b_name b) fit = [L] /\ fitted_by num L b)) /\
  (forall L, any_name fit L -> In (chars L 0 9) (map b_name l)).
Proof.
  intros H. apply helm_keys in H as (srcs & m1 & srcs2 & P & F & A). apply pos_spec in P as (P1 & P2 & _ & _ & _). apply fit_spec in F as (F1 & F2 & F3 & _).
  rewrite fst_pair in F1, F2. specialize (P1 (NoDup_nil _)).
  assert (NM : map b_name l = map list_ascii_of_string (map fst srcs2)).
  { clear - A. induction A as [|(k & p & fits) b la lb Hab]; auto. cbn [map fst]. f_equal; auto. destruct fits as [|xs [|]]; [discriminate| |discriminate]. apply helm_src_spec in Hab. tauto. }
  assert (ND2 : NoDup (map fst srcs2)) by (rewrite F1; auto).
  assert (KS : forall k, In k (map b_name l) <-> In (string_of_list_ascii k) (map fst srcs)).
  { intros k. rewrite NM, <- F1, (in_map_iff list_ascii_of_string). split.
    - intros (x & <- & I). rewrite string_of_list_ascii_of_string. auto.
    - intros I. exists (string_of_list_ascii k). rewrite list_ascii_of_string_of_list_ascii. auto. }
  split; [|split; [|split]].
  - rewrite NM. apply FinFun.Injective_map_NoDup; auto. intros x y E. apply (f_equal string_of_list_ascii) in E. rewrite !string_of_list_ascii_of_string in E. auto.
  - intros k. rewrite KS, lookup_in_fst, P2, of_name_sel. cbn [lookup]. rewrite <- (rev_involutive (sel _ pos)) at 2.
    destruct (rev (sel _ pos)) as [|L r]; cbn [rev]; [tauto|]. split; [intros _ X; apply app_eq_nil in X as [_ X]; discriminate|discriminate].
  - intros b I. assert (X : exists k p fits, In (k, (p, fits)) srcs2 /\ helm_src (k, (p, fits)) = Ok b).
    { clear - A I. induction A as [|(k & p & fits) b' la lb Hab]; [contradiction|]. destruct I as [->|I]; [exists k, p, fits; split; [left; auto|auto]|]. destruct (IHA I) as (k' & p' & f' & Q & Q'). exists k', p', f'. split; [right; auto|auto]. }
    destruct X as (k & p & fits & I2 & E). assert (L2 := in_lookup k (p, fits) srcs2 ND2 I2). specialize (F3 k). rewrite lookup_pair in F3. destruct (lookup k srcs) as [p0|] eqn:L1; [|congruence].
    destruct F3 as (new & N2 & L3). rewrite L2 in L3. injection L3 as <- ->. cbn [app] in *. destruct new as [|xs [|]]; [discriminate| |discriminate].
    apply helm_src_spec in E as (En & Er & Ed & Es & Em). split; auto. rewrite En, !of_name_sel, string_of_list_ascii_of_string. split.
    + specialize (P2 k). cbn [lookup] in P2. rewrite L1 in P2. destruct (rev (sel k pos)) as [|L r] eqn:Rv; [discriminate|]. exists (rev r), L. split; [rewrite <- (rev_involutive (sel k pos)), Rv; auto|].
      injection P2 as ->. unfold pos_of in *. exists (strip (chars L 35 45)), (strip (chars L 46 57)). split; [apply trimmed_iff; auto|]. split; [apply trimmed_iff; auto|].
      split; apply colons_iff; symmetry; [rewrite Er|rewrite Ed]; do 2 f_equal; rewrite chars_cut; [rewrite cut_cut|rewrite skip_cut]; reflexivity.
    + inversion N2 as [|L xs' la lb Hx Hn]; subst. inversion Hn; subst. exists L. split; auto. exists xs. auto.
  - intros L I. apply KS. unfold any_name in I. rewrite of_name_sel in I. apply sel_in in I as (I & J & K). rewrite chars_cut. apply F2; auto.
Qed.
(* and it can be read if every line is in order and the two files name the same sources, each once
   in the file of fits *)
Theorem C62_helmboldt_loads m pos fit :
  (forall L, any_name pos L -> (exists v, measures num L v) /\ exists c, nth_error L 33 = Some c /\ digit_char c) ->
  (forall L, any_name fit L -> exists x xs, numbers num (chars L 13 62) (x :: xs)) ->
  (forall k, of_name k fit <> [] -> of_name k pos <> []) ->
  (forall k, of_name k pos <> [] -> exists L, of_name k fit = [L]) ->
  exists l m', helm num m pos fit = Ok (l, m').
Proof.
  assert (AN : forall lines L, In L lines -> is_J L = true -> any_name lines L).
  { intros lines L I J. unfold any_name. rewrite of_name_sel, chars_cut. apply sel_in. auto. }
  intros H1 H2 H3 H4. destruct (pos_ok num pos [] m) as ((srcs, m1) & P).
  { intros L I J. destruct (H1 L) as (V & c & C & D); [apply AN; auto|]. split; auto. exists c. split; auto. apply digit_iff; auto. }
  assert (P' := P). apply pos_spec in P' as (P1 & P2 & _). specialize (P1 (NoDup_nil _)). cbn [lookup] in P2.
  assert (KS : forall k, In k (map fst srcs) <-> sel k pos <> []).
  { intros k. rewrite lookup_in_fst, P2. rewrite <- (rev_involutive (sel k pos)) at 2. destruct (rev (sel k pos)) as [|L r]; cbn [rev]; [tauto|]. split; [intros _ X; apply app_eq_nil in X as [_ X]; discriminate|discriminate]. }
  assert (SO : forall k lines, sel k lines = of_name (list_ascii_of_string k) lines) by (intros; rewrite of_name_sel, string_of_list_ascii_of_string; auto).
  destruct (fit_ok num fit (map (fun '(k, p) => (k, (p, []))) srcs) m1) as ((srcs2, m2) & F).
  { intros L I J. rewrite fst_pair. split.
    - apply KS. rewrite SO. apply H3. rewrite <- SO. intros E. assert (X : In L (sel (key L) fit)) by (apply sel_in; auto). rewrite E in X. contradiction.
    - destruct (H2 L) as (x & xs & N); [apply AN; auto|]. exists (x :: xs). auto. }
  unfold helm. rewrite P. cbn [bind]. rewrite F. cbn [bind]. apply fit_spec in F as (F1 & F2 & F3 & _). rewrite fst_pair in F1. assert (ND2 : NoDup (map fst srcs2)) by (rewrite F1; auto).
  assert (M : exists l, map_res helm_src srcs2 = Ok l); [|destruct M as (l & ->); cbn [bind]; eauto].
  assert (EV : Forall (fun e => exists b, helm_src e = Ok b) srcs2).
  { apply Forall_forall. intros (k & p & fits) I. assert (L2 := in_lookup k (p, fits) srcs2 ND2 I). specialize (F3 k). rewrite lookup_pair in F3.
    assert (Ik : In k (map fst srcs)) by (rewrite <- F1; apply in_map_iff; exists (k, (p, fits)); auto).
    pose proof Ik as Ik2. apply lookup_in_fst in Ik. destruct (lookup k srcs) as [p0|]; [|congruence]. destruct F3 as (new & N2 & L3). rewrite L2 in L3. injection L3 as _ ->. cbn [app].
    apply KS in Ik2. rewrite SO in Ik2. apply H4 in Ik2 as (L & E). rewrite <- SO in E. rewrite E in N2. inversion N2 as [|L' xs la lb Hx Hn]; subst. inversion Hn; subst. apply helm_src_ok.
    intros ->. destruct (H2 L) as (x & xs & N).
    - assert (X : In L (sel k fit)) by (rewrite E; left; auto). apply sel_in in X as (X1 & X2 & _). apply AN; auto.
    - unfold spec_of in Hx. apply numbers_iff in Hx. apply numbers_iff in N. congruence. }
  clear - EV. induction EV as [|e srcs2 (b & Hb) HE (l & IH)]; cbn [map_res]; eauto. rewrite Hb. cbn [bind]. rewrite IH. cbn [bind]. eauto.
Qed.
(* the measurements kept for a name: those kept before, then one for each line of that name in
   order; the rms of its fit, -1 where there is none; names not in the files keep what they had *)
Theorem C62_helmboldt_measurements m pos fit l m' k : helm num m pos fit = Ok (l, m') ->
  (exists new, Forall2 (measures num) (of_name k pos) new /\
     match lookup (string_of_list_ascii k) (m_data m') with Some v => v | None => [] end =
     match lookup (string_of_list_ascii k) (m_data m) with Some v => v | None => [] end ++ new) /\
  (forall L, of_name k fit = [L] -> exists x, lookup (string_of_list_ascii k) (m_rms m') = Some x /\
     ((num (chars L 63 70) = Some x) \/ (num (chars L 63 70) = None /\ x = -1))) /\
  (of_name k fit = [] -> lookup (string_of_list_ascii k) (m_rms m') = lookup (string_of_list_ascii k) (m_rms m)).
Proof.
  intros H. apply helm_keys in H as (srcs & m1 & srcs2 & P & F & A). apply pos_spec in P as (_ & _ & P3 & P4 & _). apply fit_spec in F as (_ & _ & _ & F4 & _ & F6).
  rewrite !of_name_sel. split.
  - destruct (P3 (string_of_list_ascii k)) as (new & N & G). exists new. split; auto. rewrite F4. exact G.
  - rewrite F6. split; [|intros ->; cbn [rev]; congruence]. intros L ->. cbn [rev app]. eexists. split; [reflexivity|]. rewrite chars_cut. destruct (num (cut L 63 70)); auto.
Qed.

(* ---- the catalogue made of what was read ---- *)
(* a name gives the last source of that name *)
Theorem C62_last_row l k :
  lookup (string_of_list_ascii k) (fill [] l) = find (fun b => if list_eq_dec ascii_dec (b_name b) k then true else false) (rev l) /\
  forall k', In k' (map fst (fill [] l)) <-> exists b, In b l /\ k' = string_of_list_ascii (b_name b).
Proof.
  assert (H : forall k, lookup (string_of_list_ascii k) (fill [] l) = find (fun b => if list_eq_dec ascii_dec (b_name b) k then true else false) (rev l)).
  { clear k. intros k. unfold fill. cbn [add_srcs fst]. rewrite fold_put. cbn [lookup]. rewrite <- fold_left_rev_right, <- map_rev. induction (rev l) as [|b r IH]; auto. cbn [map fold_right find].
    unfold over, ev at 1. cbn [fst snd]. unfold bname. destruct (list_eq_dec ascii_dec (b_name b) k) as [->|N]; [rewrite String.eqb_refl; auto|].
    destruct (String.eqb_spec (string_of_list_ascii k) (string_of_list_ascii (b_name b))) as [E|]; [apply str_inj in E; congruence|]. exact IH. }
  split; [apply H|]. intros k'. rewrite lookup_in_fst. rewrite <- (string_of_list_ascii_of_string k'), H. set (kk := list_ascii_of_string k'). split.
  - destruct (find _ (rev l)) as [b|] eqn:E; [|congruence]. intros _. apply find_some in E as [I Q]. apply in_rev in I. destruct (list_eq_dec ascii_dec (b_name b) kk) as [<-|]; [|discriminate]. exists b. auto.
  - intros (b & I & E) N. apply str_inj in E. apply in_rev in I. apply (find_none _ _ N) in I. destruct (list_eq_dec ascii_dec (b_name b) kk); congruence.
Qed.
(* the files are read on the first request only; later ones give the same catalogue whatever the files hold by then *)
Theorem C62_loaded_once files files' c : snd (get_module None files) = Ok c ->
  fst (get_module None files) = Some c /\ snd (get_module (Some c) files') = Ok c /\ fst (get_module (Some c) files') = Some c.
Proof. unfold get_module. destruct (load [] files) as (c' & [|]); cbn; [|discriminate]. intros [= ->]. auto. Qed.
(* several files one after the other are one file *)
Theorem C62_several files ls : files = map Ok ls -> get_module None files = (Some (fill [] (concat ls)), Ok (fill [] (concat ls))).
Proof.
  intros ->. assert (G : forall c, load c (map Ok ls) = (fill c (concat ls), true)).
  { induction ls as [|l ls IH]; intros c; cbn [map load concat]; auto. rewrite IH. unfold fill. cbn [add_srcs fst]. rewrite fold_left_app. auto. }
  unfold get_module. rewrite G. auto.
Qed.
(* a finding: when the file cannot be read the first request raises, and every later one quietly
   gives the catalogue without it *)
Theorem C62_failed_load_refuted files files' : snd (get_module None (Err :: files)) = Err /\
  snd (get_module (fst (get_module None (Err :: files))) files') = Ok [].
Proof. split; reflexivity. Qed.
(* a finding: a line of enough columns whose first field is empty makes the whole file unreadable *)
Theorem C62_blank_field_refuted t before after : (4 <= length t)%nat -> Forall (fun s => ~ In tab_char s) t ->
  three_c num (before ++ join tab_char ([] :: t) :: after) = Err.
Proof.
  intros Len F. destruct (three_c num _) as [l|] eqn:E; auto. exfalso. apply C62_tables in E. unfold table in E.
  assert (FL : fields (join tab_char ([] :: t)) ([] :: t)) by (split; [discriminate|]; split; [constructor; auto|auto]).
  assert (NC : ~ comment (join tab_char ([] :: t))).
  { destruct t; [cbn in Len; lia|]. intros (s & X). discriminate X. }
  assert (U : forall t', fields (join tab_char ([] :: t)) t' -> t' = [] :: t) by (intros t' Q; apply fields_iff in Q; apply fields_iff in FL; congruence).
  remember (before ++ join tab_char ([] :: t) :: after) as lines eqn:EL. revert before EL. induction E as [|L r l' S E IH|L r b l' S E IH]; intros before EL.
  - destruct before; discriminate.
  - destruct before as [|B before]; cbn [app] in EL; injection EL as -> ->; [|eapply IH; eauto].
    destruct S as [?|(L' & t' & <- & Q & [X|(f & r' & c & s & X & Y & _)])]; [contradiction| |]; apply U in Q; subst t'; [exact (Nat.lt_irrefl _ (Nat.le_trans _ _ _ (le_n_S _ _ Len) X))|]. injection X as <- _. discriminate.
  - destruct before as [|B before]; cbn [app] in EL; injection EL as -> ->; [|eapply IH; eauto].
    destruct S as (_ & L' & t' & <- & Q & _ & (f & r' & c & s & X & Y & _) & _). apply U in Q. subst t'. injection X as <- _. discriminate.
Qed.
(* a finding: a Helmboldt source without an index shines at 74 MHz only: at twice the frequency
   there is less than 10^-29 of it *)
Theorem C62_no_index_refuted L b a : numbers num (chars L 13 62) [a] -> fitted_by num L b -> b_mfreq b = 74 / 1000 -> 0 < a ->
  exists x, flux b (148 / 1000) = Ok (Some x) /\ x * 10 ^ 29 < a.
Proof.
  intros N (xs & N' & S) M A. assert (xs = [a]) by (apply numbers_iff in N; apply numbers_iff in N'; congruence). subst xs.
  inversion S; subst. destruct b as [bn br bd bj bs bm]. cbn [b_jys b_spec b_mfreq] in *. subst. eexists. split; [reflexivity|].
  cbn [b_mfreq]. replace (148 / 1000 / (74 / 1000)) with 2 by field. unfold Rpower. replace (-99 * ln 2) with (- ln (2 ^ 99)) by (rewrite ln_pow by lra; rewrite INR_IZR_INZ; change (Z.of_nat 99) with 99%Z; lra).
  rewrite exp_Ropp, exp_ln by (apply pow_lt; lra). rewrite Rmult_assoc. rewrite <- (Rmult_1_r a) at 2. apply Rmult_lt_compat_l; auto.
  apply (Rmult_lt_reg_l (2 ^ 99)); [apply pow_lt; lra|]. rewrite <- Rmult_assoc, Rinv_r, Rmult_1_l, Rmult_1_r by (apply pow_nonzero; lra).
  rewrite !pow_IZR. apply IZR_lt. vm_compute. reflexivity.
Qed.
(* a finding: a Culgoora row without a flux at either frequency makes every request with a cutoff raise *)
Theorem C62_unmeasured_refuted t b : culgoora_row num t [b] -> value num 7 t None -> value num 9 t None -> value num 10 t None ->
  b_jys b = None /\ forall h m n i cut fq, nth_error h i = Some (Obj b None None) -> In (n, i) m -> module_refs h m None (Some (cut, fq)) = Err.
Proof.
  intros (_ & b' & s160 & s80 & ix & E & _ & _ & V1 & V2 & V3 & H) U1 U2 U3. injection E as <-.
  assert (VU : forall k v w, value num k t v -> value num k t w -> v = w) by (intros k v w (s & A & <-) (s' & B & <-); congruence).
  rewrite (VU _ _ _ V1 U1), (VU _ _ _ V2 U2), (VU _ _ _ V3 U3) in H. destruct H as (_ & H).
  assert (J : b_jys b = None). { destruct H as [(X & _)|(_ & _ & [(_ & X)|(_ & X)])]; [congruence|auto|auto]. }
  split; auto. intros h m n i cut fq I Im. unfold module_refs. destruct (cat_update h m [fq]) as [h'|] eqn:U; auto. exfalso.
  apply update_refs_spec in U as (_ & _ & C). destruct (C i _ I) as (v & W & _); [apply in_map_iff; exists (n, i); auto|]. unfold fluxes in W. cbn [o_body map_res] in W. unfold flux in W. rewrite J in W. discriminate.
Qed.
End Files.

(* a small file: a heading, a comment, two rows of which one name occurs twice *)
Definition num_z (s : str) : option R := match py_int s with Ok z => Some (IZR z) | Err => None end.
Definition tl (l : list string) : str := join tab_char (map list_ascii_of_string l).
Definition small : list str :=
  [tl ["#comment"]; tl ["RA"; "DE"; "name"; "a"; "b"; "c"]; tl ["05 34 32.0"; "+22 00 52"; " crab "; "-"; "-"; "1838"];
   tl ["short"; "x"]; tl ["12 30 49.4"; "+12 23 28"; "vir"; "-"; "-"; "1446"]; tl ["12 30 50.0"; "+12 23 28"; "vir"; "-"; "-"; "1500"]]%string.
Example C62_small : exists a b c, four_c num_z small = Ok [a; b; c] /\ b_name a = list_ascii_of_string "crab" /\ b_ra a = list_ascii_of_string "05:34:32.0" /\
  b_jys c = Some (1500 / 1) /\ lookup "vir" (fill [] [a; b; c]) = Some c.
Proof.
  do 3 eexists. split; [|split; [|split; [|split]]].
  - unfold four_c, vizier. replace (data_lines small) with [nth 1 small []; nth 2 small []; nth 3 small []; nth 4 small []; nth 5 small []] by reflexivity. reflexivity.
  - reflexivity.
  - reflexivity.
  - reflexivity.
  - reflexivity.
Qed.
(* two sources of the Helmboldt files: one with the curve fitted, one with a flux only *)
Definition pos_file : list str := map list_ascii_of_string
  ["Title: positions";
   "J0000+554 87GB 235746.2+552220   1 00 00 20.4 +55 39 06.1     74       15       3";
   "J0000+554 87GB 235746.2+552220   1 00 00 20.4 +55 39 06.1    325        5       1";
   "J0003-173 3C 2                   2 00 03 22.3 -17 27 16.5     74       18       2"]%string.
Definition fit_file : list str := map list_ascii_of_string
  ["J0000+554  7      15                                              ";
   "J0003-173 17      18    -1     24      1     -1      2      3      5"]%string.
Example C62_helmboldt_case : exists a b m, helm num_z (Meta [] [] []) pos_file fit_file = Ok ([a; b], m) /\
  b_ra a = list_ascii_of_string "00:00:20.4" /\ b_dec b = list_ascii_of_string "-17:27:16.5" /\
  b_spec a = Law (-99) /\ b_spec b = Helm (Lst [-1; 2; 3]) /\ lookup "J0000+554" (m_data m) = Some [(74 / 1000, 15, 3); (325 / 1000, 5, 1)] /\
  m_rms m = [("J0000+554"%string, -1); ("J0003-173"%string, 5)] /\ m_ncomp m = [("J0000+554"%string, 1%Z); ("J0003-173"%string, 2%Z)].
Proof.
  assert (P : pos_lines num_z pos_file [] (Meta [] [] []) =
    Ok ([("J0000+554", lit "00 00 20.4 +55 39 06.1"); ("J0003-173", lit "00 03 22.3 -17 27 16.5")]%string,
        Meta [("J0000+554", [(74 / 1000, 15, 3); (325 / 1000, 5, 1)]); ("J0003-173", [(74 / 1000, 18, 2)])]%string [] [("J0000+554", 1%Z); ("J0003-173", 2%Z)]%string)) by reflexivity.
  unfold helm. rewrite P. cbn [bind map].
  assert (F : forall m, fit_lines num_z fit_file [("J0000+554", (lit "00 00 20.4 +55 39 06.1", [])); ("J0003-173", (lit "00 03 22.3 -17 27 16.5", []))]%string m =
    Ok ([("J0000+554", (lit "00 00 20.4 +55 39 06.1", [[15]])); ("J0003-173", (lit "00 03 22.3 -17 27 16.5", [[18; -1; 24; 1; -1; 2; 3]]))]%string,
        Meta (m_data m) (dset "J0003-173" 5 (dset "J0000+554" (-1) (m_rms m))) (m_ncomp m))) by reflexivity.
  rewrite F. cbn [bind map_res helm_src]. destruct (Req_EM_T 1 (-99)) as [E|N]; [lra|]. cbn [bind]. do 3 eexists. repeat split.
Qed.

Print Assumptions C62_tables.
Print Assumptions C62_named_by_position.
Print Assumptions C62_parkes.
Print Assumptions C62_txs.
Print Assumptions C62_culgoora.
Print Assumptions C62_paper.
Print Assumptions C62_mrt.
Print Assumptions C62_helmboldt.
Print Assumptions C62_helmboldt_loads.
Print Assumptions C62_helmboldt_measurements.
Print Assumptions C62_last_row.
Print Assumptions C62_loaded_once.
Print Assumptions C62_several.
Print Assumptions C62_failed_load_refuted.
Print Assumptions C62_blank_field_refuted.
Print Assumptions C62_no_index_refuted.
Print Assumptions C62_unmeasured_refuted.
