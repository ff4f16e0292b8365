(* C73: the texts that scripts/srclist.py prints for fitmdl.py, and aipy/cal.py. *)
From Coq Require Import Reals Ascii String QArith.
From Verif Require Import Base ScriptModel ScriptSpec ScriptProofs PrmModel PrmSpec PrmProofs PrmProps RfModel SrlModel SrlSpec.
Open Scope nat_scope.
Local Notation length := List.length.

Lemma joined_join l : joined (lit "/") l = join "/"%char l.
Proof. induction l as [|a [|b l] IH]; [reflexivity|reflexivity|]. cbn [joined join] in *. rewrite IH. reflexivity. Qed.
Definition item (prms : str -> list str) (s : str) : str := s ++ "="%char :: "("%char :: join "/"%char (prms s) ++ [")"%char].
Definition good (prms : str -> list str) (s : str) : Prop := name_ok s /\ prms s <> [] /\ Forall name_ok (prms s).
Lemma re_prm_item prms s junk : good prms s -> (match junk with [] => True | c :: _ => c <> "/"%char end) ->
  re_prm (item prms s ++ junk) = Some (Match (GName s) (GList (join "/"%char (prms s))) None None).
Proof.
  intros (NS & NP & FP) J. unfold re_prm, item. rewrite <- app_assoc. cbn [app]. unfold re_grp at 1. rewrite re_name_ok; [|exact NS|reflexivity]. cbn [ceqb Ascii.eqb Bool.eqb]. rewrite ?ceqb_refl.
  unfold re_grp, re_name. cbn [app span_name]. change (special "("%char) with true. cbv iota. change (ceqb "=" "=") with true. change (ceqb "(" "(") with true. cbv iota.
  destruct (prms s) as [|n l]; [congruence|]. inversion FP as [|? ? Hn Fl]; subst. rewrite join_slashed, <- !app_assoc. cbn [app].
  change (match span_name (n ++ slashed l ++ ")"%char :: junk) with ([], _) => None | p => Some p end) with (re_name (n ++ slashed l ++ ")"%char :: junk)).
  rewrite re_name_ok; [|exact Hn|apply slashed_stops; reflexivity]. rewrite re_more_ok; [|exact Fl| |split; [reflexivity|discriminate]].
  - change (ceqb ")" ")") with true. cbv iota. destruct junk as [|c r]; [reflexivity|]. destruct (ceqb c "/"%char) eqn:E; [|reflexivity]. apply Ascii.eqb_eq in E. congruence.
  - rewrite app_length. pose proof (slashed_length l Fl). lia.
Qed.
Lemma fit_from_pair prms a b l : forall k, fit_from k (k + length l + 2) prms (l ++ [a; b]) = flat_map (fun s => item prms s ++ [","%char]) l ++ item prms a ++ item prms b.
Proof.
  assert (IT : forall s, s ++ lit "=(" ++ joined (lit "/") (prms s) ++ lit ")" = item prms s) by (intros s; rewrite joined_join; reflexivity).
  assert (IC : forall s, s ++ lit "=(" ++ joined (lit "/") (prms s) ++ lit ")," = item prms s ++ [","%char]).
  { intros s. rewrite joined_join. unfold item. rewrite <- app_assoc. cbn [app]. rewrite <- app_assoc. reflexivity. }
  induction l as [|s l IH]; intros k; cbn [app fit_from length flat_map].
  - destruct (Nat.ltb_spec (S k) (k + 0 + 2 - 1)); [lia|]. destruct (Nat.ltb_spec (S (S k)) (k + 0 + 2 - 1)); [lia|]. rewrite !IT, app_nil_r. reflexivity.
  - destruct (Nat.ltb_spec (S k) (k + S (length l) + 2 - 1)); [|lia]. rewrite IC. specialize (IH (S k)). replace (k + S (length l) + 2) with (S k + length l + 2) by lia. rewrite IH, <- !app_assoc. reflexivity.
Qed.
Lemma fit_text_one prms a : fit_text prms [a] = item prms a.
Proof. unfold fit_text. cbn [length fit_from Nat.sub Nat.ltb Nat.leb]. rewrite joined_join, app_nil_r. reflexivity. Qed.
Lemma fit_text_pair prms l a b : fit_text prms (l ++ [a; b]) = join ","%char (map (item prms) l ++ [item prms a ++ item prms b]).
Proof.
  unfold fit_text. rewrite app_length. cbn [length]. pose proof (fit_from_pair prms a b l 0) as E. cbn [Nat.add] in E. rewrite E. clear E.
  induction l as [|s l IH]; [reflexivity|]. cbn [flat_map map app]. rewrite <- !app_assoc, IH. cbn [join]. destruct (map (item prms) l ++ [item prms a ++ item prms b]) eqn:E; [destruct l; discriminate|]. reflexivity.
Qed.
Lemma item_text F (tofloat : str -> option F) prms s : good prms s -> assign_text F tofloat (item prms s) (Assign F [s] (prms s) None None).
Proof.
  intros (NS & NP & FP). pose proof (as_intro F tofloat s ("("%char :: join "/"%char (prms s) ++ [")"%char]) [] [s] (prms s) None None (nt_one s NS) (nt_many (prms s) NP FP) (tt_none F tofloat)) as A.
  rewrite app_nil_r in A. exact A.
Qed.
Lemma item_comma prms s : good prms s -> free ","%char (item prms s).
Proof. intros G. eapply assign_text_comma. apply (item_text unit (fun _ => None)). exact G. Qed.
Lemma parse_items_same F (tofloat : str -> option F) l m : Forall2 (fun a b => re_prm a = re_prm b) l m -> forall d, parse_items F tofloat d l = parse_items F tofloat d m.
Proof.
  induction 1 as [|a b l m E _ IH]; intros d; [reflexivity|]. cbn [parse_items]. unfold parse_item. rewrite E. destruct (re_prm b); [|reflexivity]. destruct (vals_of F tofloat (m_val _)); [|reflexivity]. cbn [bind].
  destruct (vals_of F tofloat (m_sig _)); [|reflexivity]. cbn [bind]. destruct (shape _ _ _ _ _); [|reflexivity]. cbn [bind]. apply IH.
Qed.
Lemma last_in {F} (l : list (str * str * (option F * option F))) o p y : last_setting F l o p = Some y -> In (o, p, y) l.
Proof.
  induction l as [|[[o' p'] x] l IH]; cbn [last_setting]; [discriminate|]. destruct (last_setting F l o p) as [z|]; [intros E; right; apply IH; exact E|].
  destruct (list_eq_dec ascii_dec o' o) as [->|]; [|discriminate]. destruct (list_eq_dec ascii_dec p' p) as [->|]; [|discriminate]. intros E. injection E as ->. left. reflexivity.
Qed.
Lemma last_some {F} (l : list (str * str * (option F * option F))) o p y : In (o, p, y) l -> last_setting F l o p <> None.
Proof.
  induction l as [|[[o' p'] x] l IH]; intros I; [destruct I|]. cbn [last_setting]. destruct I as [E|I].
  - injection E as -> -> ->. destruct (last_setting F l o p); [discriminate|]. destruct (list_eq_dec ascii_dec o o); [|congruence]. destruct (list_eq_dec ascii_dec p p); [discriminate|congruence].
  - specialize (IH I). destruct (last_setting F l o p); [discriminate|congruence].
Qed.
(* what the parameters are understood to be: those of the sources, free of values *)
Definition asks (F : Type) (prms : str -> list str) (srcs : list str) (d : list (str * list (str * (option F * option F)))) : Prop :=
  (forall o p, In o srcs -> In p (prms o) -> match dget d o with Some e => dget e p | None => None end = Some (None, None)) /\
  (forall o p, ~ (In o srcs /\ In p (prms o)) -> match dget d o with Some e => dget e p | None => None end = None) /\
  forall o, dget d o <> None <-> In o srcs.
Lemma items_ask F (tofloat : str -> option F) prms l : l <> [] -> Forall (good prms) l -> exists d, parse_prms F tofloat (join ","%char (map (item prms) l)) = Ok d /\ asks F prms l d.
Proof.
  intros NE G. destruct (C55_parameters_denoted F tofloat (map (item prms) l) (map (fun s => Assign F [s] (prms s) None None) l)) as (d & E & A & B).
  - destruct l; [congruence|discriminate].
  - clear NE. induction G as [|s l GS _ IH]; [constructor|]. cbn [map]. constructor; [apply item_text, GS|exact IH].
  - apply Forall_forall. intros a J. apply in_map_iff in J as (s & <- & _). split; exact I.
  - exists d. split; [exact E|].
    assert (SI : forall o p y, In (o, p, y) (flat_map (settings F) (map (fun s => Assign F [s] (prms s) None None) l)) <-> In o l /\ In p (prms o) /\ y = (None, None)).
    { intros o p y. rewrite in_flat_map. split.
      - intros (a & I & J). apply in_map_iff in I as (s & <- & I). unfold settings in J. cbn [a_objs a_prms a_vals a_sigs length seq flat_map app] in J. rewrite app_nil_r in J. apply in_map_iff in J as (j & E1 & J). cbn in E1. injection E1 as <- <- <-. split; [exact I|]. split; [|reflexivity].
        apply in_seq in J. apply nth_In. lia.
      - intros (I & J & ->). exists (Assign F [o] (prms o) None None). split; [apply in_map_iff; exists o; auto|]. unfold settings. cbn [a_objs a_prms a_vals a_sigs length seq flat_map app]. rewrite app_nil_r. apply (In_nth _ _ []) in J as (j & J1 & J2).
        apply in_map_iff. exists j. split; [rewrite <- J2; reflexivity|]. apply in_seq. split; [apply Nat.le_0_l|exact J1]. }
    assert (LS : forall o p, In o l -> In p (prms o) -> last_setting F (flat_map (settings F) (map (fun s => Assign F [s] (prms s) None None) l)) o p = Some (None, None)).
    { intros o p I J. destruct (last_setting F _ o p) as [y|] eqn:L; [apply last_in, SI in L as (_ & _ & ->); reflexivity|]. exfalso. revert L. apply last_some with (y := (None, None)). apply SI. auto. }
    split; [|split].
    + intros o p I J. rewrite A. apply LS; assumption.
    + intros o p N. rewrite A. destruct (last_setting F _ o p) as [y|] eqn:L; [|reflexivity]. apply last_in, SI in L. tauto.
    + intros o. rewrite B. split.
      * intros (p & H). destruct (last_setting F _ o p) as [y|] eqn:L; [|congruence]. apply last_in, SI in L. tauto.
      * intros I. pose proof (proj1 (Forall_forall _ _) G o I) as (_ & NP & _). destruct (prms o) as [|p q] eqn:P; [congruence|]. exists p. rewrite LS; [discriminate|exact I|rewrite P; left; reflexivity].
Qed.
(* one source: fitmdl.py reads what was asked for *)
Theorem C73_fit_one F (tofloat : str -> option F) prms a : good prms a -> exists d, parse_prms F tofloat (fit_text prms [a]) = Ok d /\ asks F prms [a] d.
Proof. intros G. rewrite fit_text_one. apply (items_ask F tofloat prms [a]); [discriminate|constructor; [exact G|constructor]]. Qed.
Print Assumptions C73_fit_one.
(* finding: of two or more sources the last is not read *)
Theorem C73_fit_refuted F (tofloat : str -> option F) prms l a b : Forall (good prms) (l ++ [a; b]) -> exists d, parse_prms F tofloat (fit_text prms (l ++ [a; b])) = Ok d /\ asks F prms (l ++ [a]) d.
Proof.
  intros G. apply Forall_app in G as [GL G]. inversion G as [|? ? GA G2]; subst. inversion G2 as [|? ? GB _]; subst.
  assert (GLA : Forall (good prms) (l ++ [a])) by (apply Forall_app; split; [exact GL|constructor; [exact GA|constructor]]).
  destruct (items_ask F tofloat prms (l ++ [a])) as (d & E & A); [destruct l; discriminate|exact GLA|]. exists d. split; [|exact A]. rewrite <- E, fit_text_pair. unfold parse_prms. rewrite !split_join.
  - apply parse_items_same. rewrite map_app. apply Forall2_app.
    + clear - GL. induction (map (item prms) l); constructor; auto.
    + cbn [map]. constructor; [|constructor]. rewrite re_prm_item; [rewrite <- (app_nil_r (item prms a)), re_prm_item; [reflexivity|exact GA|exact I]|exact GA|].
      destruct GB as ((NB & CB) & _). unfold item. destruct b as [|c b]; [congruence|]. cbn [app]. intros ->. apply (CB "/"%char); [left; reflexivity|cbn; tauto].
  - destruct l; discriminate.
  - apply Forall_forall. intros t I. apply in_map_iff in I as (s & <- & I). apply item_comma. eapply Forall_forall; eauto.
  - destruct l; discriminate.
  - apply Forall_app. split; [apply Forall_forall; intros t I; apply in_map_iff in I as (s & <- & I); apply item_comma; exact (proj1 (Forall_forall _ _) GL s I)|]. apply Forall_cons; [apply free_app; apply item_comma; assumption|apply Forall_nil].
Qed.
Print Assumptions C73_fit_refuted.
Example C73_fit_ex : fit_text (fun _ => [lit "ra"; lit "dec"]) [lit "cas"; lit "cyg"; lit "tau"] = lit "cas=(ra/dec),cyg=(ra/dec)tau=(ra/dec)".
Proof. reflexivity. Qed.

(* ---------- calibration modules ---------- *)
(* Python 2: the array is what the module makes for the channels' frequencies *)
Theorem C73_get_aa {A} (f : list Q -> res A) args : exists freqs, get_aa true (Imported f) args = f freqs /\
  match args with inl l => freqs = l | inr (sdf, sfreq, n) => length freqs = n /\ forall k x, nth_error freqs k = Some x -> (x == inject_Z (Z.of_nat k) * sdf + sfreq)%Q end.
Proof.
  destruct args as [l|[[sdf sfreq] n]]; cbn [get_aa]; eexists; (split; [reflexivity|]); [reflexivity|]. unfold get_freqs. split; [rewrite map_length, seq_length; reflexivity|].
  intros k x E. rewrite nth_error_map in E. destruct (nth_error (seq 0 n) k) as [q|] eqn:S; [|discriminate]. assert (K : k < length (seq 0 n)) by (apply nth_error_Some; congruence). rewrite seq_length in K.
  rewrite (nth_error_nth' (seq 0 n) 0) in S by (rewrite seq_length; exact K). rewrite seq_nth in S by exact K. injection S as <-. injection E as <-. cbn [Nat.add]. reflexivity.
Qed.
Print Assumptions C73_get_aa.
(* finding: in Python 3 no calibration module gives an array or a catalogue *)
Theorem C73_calibration_refuted {A} (m : import (list Q -> res A)) args {B} (c own : res B) : get_aa false m args = Err /\ get_catalog false (Some (Imported c)) own = Err /\
  get_catalog true (Some (Imported c)) own = c /\ get_catalog false (Some Import_error) own = own.
Proof. split; [|split; [reflexivity|split; reflexivity]]. destruct m; reflexivity. Qed.
Print Assumptions C73_calibration_refuted.
(* finding: in Python 3 get_catalog's default for cal_key raises *)
Theorem C73_no_key_refuted {A} (own : res A) : get_catalog false None own = Err /\ get_catalog true None own = own /\ forall py2, from_cal py2 None own = own.
Proof. split; [|split]; reflexivity. Qed.
Print Assumptions C73_no_key_refuted.
