(* C61: the flux of a source follows its spectrum, and catalogues update and select by it. *)
From Coq Require Import Reals Ascii String Lra.
From Verif Require Import Base CleanModel ParamModel ParamProofs ScriptModel ScriptProofs CatModel CatProofs SrcModel SrcSpec SrcProofs.
Local Open Scope R_scope.
Local Notation length := List.length.
Ltac Zify.zify_post_hook ::= idtac.

(* a source with index i, j Jy at frequency m: j at m, and in proportion to frequency to the power i *)
Theorem C61_power_law n ra dec j i m : 0 < m ->
  exists S, shines (Body n ra dec (Some j) (Law i) m) S /\ power_law S j i m.
Proof. intros M. eexists. split; [apply law_shines; auto|apply law_power; auto]. Qed.
(* that determines the flux at every frequency *)
Theorem C61_power_law_unique S T j i m : 0 < m -> power_law S j i m -> power_law T j i m -> forall f, 0 < f -> S f = T f.
Proof. intros M [A B] [C D] f F. rewrite (B m f), (D m f), A, C; auto. Qed.
(* the frequency a source was measured at does not matter: the flux at any other frequency describes the same source *)
Theorem C61_reference n ra dec n' ra' dec' j i m m' f : 0 < m -> 0 < m' -> 0 < f ->
  forall j', flux (Body n ra dec (Some j) (Law i) m) m' = Ok (Some j') ->
  flux (Body n' ra' dec' (Some j') (Law i) m') f = flux (Body n ra dec (Some j) (Law i) m) f.
Proof.
  intros M M' F j' [= <-]. cbn [flux b_jys b_spec b_mfreq]. do 2 f_equal. unfold Rpower. rewrite !ln_div by auto. rewrite Rmult_assoc, <- exp_plus. do 2 f_equal. lra.
Qed.
(* sources of the Helmboldt catalogue follow the published curve; of the index list three numbers count, missing ones being 0 *)
Theorem C61_helmboldt n ra dec j idx m : 0 < m -> 0 < j ->
  exists S, shines (Body n ra dec (Some j) (Helm idx) m) S /\
    helmboldt S j (match idx with Num b => b | Lst l => match l with b :: _ => b | _ => 0 end end)
                  (match idx with Lst (_ :: c :: _) => c | _ => 0 end)
                  (match idx with Lst (_ :: _ :: d :: _) => d | _ => 0 end) m.
Proof.
  intros M J. eexists. split.
  - intros f F. cbn [flux b_jys b_spec b_mfreq]. destruct (bcd idx) as [[B C] D] eqn:E. destruct (Rlt_dec 0 j); [|contradiction].
    instantiate (1 := fun f => let '(B, C, D) := bcd idx in Rpower 10 (log10 j + B * log10 (f / m) + C * exp (D * log10 (f / m)))). cbn beta. rewrite E. reflexivity.
  - intros f F. destruct (bcd idx) as [[B C] D] eqn:E. split; [unfold Rpower; apply exp_pos|].
    assert (P := ln10_pos). exists (log10 (f / m)). split.
    + unfold log10. unfold Rdiv at 1. rewrite Rmult_assoc, Rinv_l, Rmult_1_r by lra. rewrite exp_ln by (apply div_pos; auto). field. lra.
    + assert (Q : match idx with Num b => b | Lst l => match l with b :: _ => b | _ => 0 end end = B /\
                  match idx with Lst (_ :: c :: _) => c | _ => 0 end = C /\ match idx with Lst (_ :: _ :: d :: _) => d | _ => 0 end = D).
      { unfold bcd in E. destruct idx as [b|[|b [|c [|d r]]]]; cbn in E; injection E as <- <- <-; auto. }
      destruct Q as (-> & -> & ->). unfold Rpower. rewrite ln_exp. unfold log10 at 1. field. lra.
Qed.
(* without curvature a Helmboldt source is a source with a power law *)
Theorem C61_helmboldt_straight n ra dec j b m f : 0 < m -> 0 <= j -> 0 < f ->
  flux (Body n ra dec (Some j) (Helm (Num b)) m) f = flux (Body n ra dec (Some j) (Law b) m) f /\
  flux (Body n ra dec (Some j) (Helm (Lst [b])) m) f = flux (Body n ra dec (Some j) (Law b) m) f.
Proof.
  intros M J F. cbn. destruct (Rlt_dec 0 j) as [P|P].
  - assert (Q := ln10_pos). assert (H : forall e, Rpower 10 (log10 j + b * log10 (f / m) + 0 * e) = j * Rpower (f / m) b).
    { intros e. rewrite Rmult_0_l, Rplus_0_r. unfold Rpower. replace ((log10 j + b * log10 (f / m)) * ln 10) with (ln j + b * ln (f / m)) by (unfold log10; field; lra).
      rewrite exp_plus, exp_ln by auto. auto. }
    rewrite !H. auto.
  - assert (j = 0) by lra. subst j. destruct (Req_EM_T 0 0); [|contradiction]. rewrite Rmult_0_l. auto.
Qed.
(* a finding: the jys of a Helmboldt source, which get_params shows, is not its flux at its
   frequency, which is 10^C times that *)
Theorem C61_helmboldt_jys_refuted n ra dec j b c d m : 0 < m -> 0 < j ->
  exists x, flux (Body n ra dec (Some j) (Helm (Lst [b; c; d])) m) m = Ok (Some x) /\ x = j * exp (c * ln 10) /\ (c <> 0 -> x <> j).
Proof.
  intros M J. cbn. destruct (Rlt_dec 0 j); [|contradiction]. eexists. split; [reflexivity|].
  assert (Q := ln10_pos).
  assert (E : Rpower 10 (log10 j + b * log10 (m / m) + c * exp (d * log10 (m / m))) = j * exp (c * ln 10)).
  { unfold Rdiv. rewrite Rinv_r by lra. unfold log10 at 2 3. rewrite ln_1. unfold Rdiv. rewrite Rmult_0_l, !Rmult_0_r, exp_0, Rmult_1_r, Rplus_0_r.
    unfold Rpower. rewrite Rmult_plus_distr_r, exp_plus. f_equal. unfold log10. replace (ln j / ln 10 * ln 10) with (ln j) by (field; lra). apply exp_ln; auto. }
  split; auto. rewrite E. intros C H. assert (X : exp (c * ln 10) = 1) by (apply (Rmult_eq_reg_l j); lra).
  rewrite <- exp_0 in X. apply exp_inv in X. apply C. apply (Rmult_eq_reg_r (ln 10)); lra.
Qed.
(* a finding: a Helmboldt source with a negative flux has no number for its flux, where the other sources have one *)
Theorem C61_helmboldt_negative_refuted n ra dec j idx i m f : j < 0 ->
  flux (Body n ra dec (Some j) (Helm idx) m) f = Ok None /\ exists x, flux (Body n ra dec (Some j) (Law i) m) f = Ok (Some x).
Proof.
  intros J. split; [|eexists; reflexivity]. cbn [flux b_jys b_spec b_mfreq]. destruct (bcd idx) as [[B C] D]. destruct (Rlt_dec 0 j); [lra|]. destruct (Req_EM_T j 0); [lra|]. auto.
Qed.

(* update_jys of a catalogue: every source in it gets its fluxes at these frequencies; no body and
   no other source changes; whatever was updated before *)
Theorem C61_update h c afreqs h' : cat_update h c afreqs = Ok h' ->
  length h' = length h /\
  (forall i o, nth_error h i = Some o -> exists o', nth_error h' i = Some o' /\ o_body o' = o_body o /\
     (~ (exists n, In (n, i) c) -> o' = o) /\
     ((exists n, In (n, i) c) -> exists v, fluxes (o_body o) afreqs = Ok v /\ o_jys o' = Some v)).
Proof.
  intros E. apply update_refs_spec in E as (A & B & C). split; auto. intros i o I.
  assert (Y : In i (map snd c) <-> exists n, In (n, i) c).
  { rewrite in_map_iff. split; [intros ((n & k) & <- & Q); eauto|]. intros (n & Q). exists (n, i). auto. }
  destruct (in_dec Nat.eq_dec i (map snd c)) as [N|N].
  - destruct (C i o I N) as (v & V & W). eexists. split; [exact W|]. split; auto. split; [tauto|]. intros _. exists v. auto.
  - exists o. split; auto. split; auto. split; auto. tauto.
Qed.
(* get_jys then gives, for each source asked for or for each of the catalogue, its fluxes *)
Theorem C61_get_jys h c afreqs h' srcs l : cat_update h c afreqs = Ok h' ->
  (cat_jys h' c srcs = Ok l <->
   Forall2 (fun n v => exists i o, lookup n c = Some i /\ nth_error h i = Some o /\ fluxes (o_body o) afreqs = Ok v)
           (match srcs with Some l => l | None => map fst c end) l).
Proof.
  intros E. apply update_refs_spec in E as (A & B & C). unfold cat_jys. rewrite map_res_ok. change (keys c) with (map fst c).
  assert (H : forall n v, (match lookup n c with Some i => obj_jys h' i | None => Err end = Ok v) <->
      exists i o, lookup n c = Some i /\ nth_error h i = Some o /\ fluxes (o_body o) afreqs = Ok v).
  { intros n v. destruct (lookup n c) as [i|] eqn:L; [|split; [discriminate|intros (i & o & X & _); discriminate]].
    assert (I : In i (map snd c)).
    { clear - L. induction c as [|(k, x) c IH]; [discriminate|]. cbn in L |- *. destruct (String.eqb n k); [injection L as ->; auto|right; auto]. }
    unfold obj_jys. destruct (nth_error h i) as [o|] eqn:Eo.
    - destruct (C i o Eo I) as (w & W & X). rewrite X. cbn [o_jys]. split.
      + intros [= <-]. exists i, o. auto.
      + intros (i' & o' & [= <-] & Y & Z). assert (o' = o) by congruence. subst o'. congruence.
    - assert (Z : nth_error h' i = None) by (apply nth_error_None; rewrite A; apply nth_error_None; auto). rewrite Z. split; [discriminate|].
      intros (i' & o' & [= <-] & Y & _). congruence. }
  split; intros F; (induction F; constructor; auto; apply H; auto).
Qed.
(* a cutoff: exactly the sources of the module brighter than cut at that frequency, in the order of the catalogue *)
Theorem C61_cutoff h m cut fq h' l : module_refs h m None (Some (cut, fq)) = Ok (h', l) -> NoDup (map fst m) ->
  cat_update h m [fq] = Ok h' /\
  exists names, l = flat_map (fun n => match lookup n m with Some i => [i] | None => [] end) names /\
    (exists keep, names = map fst (filter snd keep) /\ map fst keep = map fst m) /\
    forall n, In n names <-> exists i o x, lookup n m = Some i /\ nth_error h i = Some o /\ flux (o_body o) fq = Ok (Some x) /\ cut < x.
Proof.
  unfold module_refs. intros E ND. destruct (cat_update h m [fq]) as [h1|] eqn:U; [|discriminate]. cbn [bind] in E.
  destruct (map_res _ (keys m)) as [q|] eqn:Q; [|discriminate]. cbn [bind] in E. injection E as -> <-. split; auto.
  exists (map fst (filter snd q)). split; auto. apply map_res_ok in Q.
  assert (K : map fst q = map fst m).
  { clear - Q. unfold keys in Q. induction Q; auto. cbn. destruct (match lookup x m with Some i => obj_jys h' i | None => Err end) as [v|]; [|discriminate]. cbn [bind] in H. injection H as <-. cbn. f_equal. auto. }
  split; [exists q; auto|].
  assert (G : forall n v, (match lookup n m with Some i => obj_jys h' i | None => Err end = Ok v) ->
     exists i o x, lookup n m = Some i /\ nth_error h i = Some o /\ flux (o_body o) fq = Ok x /\ v = [x]).
  { intros n v. destruct (lookup n m) as [i|] eqn:L; [|discriminate]. intros O.
    assert (I : In i (map snd m)).
    { clear - L. induction m as [|(k, x) m IH]; [discriminate|]. cbn in L |- *. destruct (String.eqb n k); [injection L as ->; auto|right; auto]. }
    apply update_refs_spec in U as (A & B & C). unfold obj_jys in O.
    destruct (nth_error h' i) as [o'|] eqn:O'; [|discriminate]. destruct (nth_error h i) as [o|] eqn:Oo.
    - destruct (C i o Oo I) as (w & W & X). rewrite X in O'. injection O' as <-. cbn [o_jys] in O. injection O as <-.
      unfold fluxes in W. cbn [map_res] in W. destruct (flux (o_body o) fq) as [x|] eqn:F; [|discriminate]. cbn [bind] in W. injection W as <-. exists i, o, x. auto.
    - exfalso. apply nth_error_None in Oo. assert (nth_error h' i = None) by (apply nth_error_None; lia). congruence. }
  intros n. rewrite in_map_iff. split.
  - intros ((n' & bl) & En & I). cbn [fst] in En. subst n'. apply filter_In in I as [I T]. cbn [snd] in T. subst bl.
    assert (X : exists v, (match lookup n m with Some i => obj_jys h' i | None => Err end = Ok v) /\ above cut v = true).
    { clear - Q I. induction Q as [|a b la lb Hab]; [contradiction|]. destruct I as [->|I]; auto.
      destruct (match lookup a m with Some i => obj_jys h' i | None => Err end) as [v|] eqn:V; [|discriminate]. cbn [bind] in Hab. injection Hab as Ha T. subst a. exists v. auto. }
    destruct X as (v & V & T). destruct (G n v V) as (i & o & x & L & Oo & F & ->). cbn [above] in T. destruct x as [x|]; [|discriminate].
    exists i, o, x. unfold Rltb in T. destruct (Rlt_dec cut x); [|discriminate]. auto.
  - intros (i & o & x & L & Oo & F & T). exists (n, true). split; auto. apply filter_In. split; auto.
    assert (In n (keys m)). { unfold keys. destruct (in_dec string_dec n (map fst m)); auto. exfalso. clear - L n0. induction m as [|(k,y) m IH]; [discriminate|]. cbn in *. destruct (String.eqb n k) eqn:E; [apply String.eqb_eq in E; subst; tauto|tauto]. }
    assert (X : forall a b, In a (keys m) -> a = n -> forall la, Forall2 (fun x y => bind match lookup x m with Some i => obj_jys h' i | None => Err end (fun v => Ok (x, above cut v)) = Ok y) la b -> In a la -> exists y, In y b /\ bind match lookup n m with Some i => obj_jys h' i | None => Err end (fun v => Ok (n, above cut v)) = Ok y).
    { intros a b _ -> la FF. induction FF as [|a' b' la lb Hab]; [intros []|]. intros [->|J]; [exists b'; split; [left; auto|auto]|]. destruct (IHFF J) as (y & Y1 & Y2). exists y. split; [right; auto|auto]. }
    destruct (X n q H eq_refl (keys m) Q H) as (y & Y1 & Y2).
    destruct (match lookup n m with Some i => obj_jys h' i | None => Err end) as [v|] eqn:V; [|discriminate]. cbn [bind] in Y2. injection Y2 as <-.
    destruct (G n v V) as (i' & o' & x' & L' & O' & F' & ->). assert (i' = i) by congruence. subst i'. assert (o' = o) by congruence. subst o'. assert (x' = Some x) by congruence. subst x'.
    cbn [above] in Y1. unfold Rltb in Y1. destruct (Rlt_dec cut x); [auto|contradiction].
Qed.
(* a finding: sources handed out before are the same objects, and a request with a cutoff leaves
   them with one flux at that frequency in place of those at the frequencies they were computed for *)
Definition cyg := Body (lit "cyg") (lit "19:59:28.3") (lit "40:44:02") (Some 10900) (Law 0) (150 / 1000).
Theorem C61_cutoff_disturbs_refuted : exists h1 h2 l v,
  cat_update [Obj cyg None None] [("cyg"%string, 0%nat)] [1; 2] = Ok h1 /\
  cat_jys h1 [("cyg"%string, 0%nat)] None = Ok v /\ map (@length _) v = [2%nat] /\
  module_refs h1 [("cyg"%string, 0%nat)] None (Some (10, 1)) = Ok (h2, l) /\
  exists w, cat_jys h2 [("cyg"%string, 0%nat)] None = Ok w /\ map (@length _) w = [1%nat].
Proof. do 4 eexists. repeat split. eexists. repeat split. Qed.
(* str() of any other source works once it was updated with a frequency *)
Theorem C61_str h c fqs h' i o x : cat_update h c fqs = Ok h' -> In i (map snd c) -> nth_error h i = Some o -> b_spec (o_body o) = Law x ->
  fqs <> [] -> str_ok h' i = true.
Proof.
  intros U I O B F. apply update_refs_spec in U as (_ & _ & Q). destruct (Q i o O I) as (v & _ & E). unfold str_ok. rewrite E. cbn [o_afreqs]. rewrite B.
  destruct fqs; [contradiction|reflexivity].
Qed.
(* a finding: str() of a source raises before its first update, and of a Helmboldt source always *)
Theorem C61_str_refuted h i o : nth_error h i = Some o -> o_afreqs o = None ->
  str_ok h i = false /\
  forall j c afreqs h', b_spec (o_body o) = Helm j -> cat_update h c afreqs = Ok h' -> str_ok h' i = false.
Proof.
  intros I A. split; [unfold str_ok; rewrite I, A; auto|]. intros j c afreqs h' B U. apply update_refs_spec in U as (_ & P & Q).
  unfold str_ok. destruct (in_dec Nat.eq_dec i (map snd c)) as [Y|Y].
  - destruct (Q i o I Y) as (v & _ & ->). cbn [o_afreqs]. rewrite B, A. auto.
  - rewrite (P i o I Y), A. auto.
Qed.

Example C61_power_case : exists x y, flux (Body [] [] [] (Some 9160) (Law (-1)) (1 / 8)) (1 / 4) = Ok (Some x) /\ x = 4580 /\
  flux (Body [] [] [] (Some 9160) (Law (-1)) (1 / 8)) (1 / 8) = Ok (Some y) /\ y = 9160.
Proof.
  assert (D : ln (1 / 4 / (1 / 8)) = ln 2) by (f_equal; field). assert (E : ln (1 / 8 / (1 / 8)) = 0) by (rewrite <- ln_1; f_equal; field).
  do 2 eexists. repeat split; unfold Rpower; cbn [b_mfreq].
  - rewrite D. replace (-1 * ln 2) with (- ln 2) by lra. rewrite exp_Ropp, exp_ln by lra. lra.
  - rewrite E, Rmult_0_r, exp_0. lra.
Qed.
Example C61_helmboldt_case : exists x, flux (Body [] [] [] (Some 100) (Helm (Lst [-1; 1; 0])) (1 / 10)) 1 = Ok (Some x) /\ x = 100.
Proof.
  eexists. split; [cbn; destruct (Rlt_dec 0 100); [reflexivity|lra]|]. assert (Q := ln10_pos).
  replace (log10 (1 / (1 / 10))) with 1 by (unfold log10; replace (1 / (1 / 10)) with 10 by field; field; lra).
  rewrite Rmult_0_l, exp_0. replace (log10 100 + -1 * 1 + 1 * 1) with (log10 100) by lra. unfold Rpower, log10. replace (ln 100 / ln 10 * ln 10) with (ln 100) by (field; lra). apply exp_ln. lra.
Qed.

Print Assumptions C61_power_law.
Print Assumptions C61_power_law_unique.
Print Assumptions C61_reference.
Print Assumptions C61_helmboldt.
Print Assumptions C61_helmboldt_straight.
Print Assumptions C61_helmboldt_jys_refuted.
Print Assumptions C61_helmboldt_negative_refuted.
Print Assumptions C61_update.
Print Assumptions C61_get_jys.
Print Assumptions C61_cutoff.
Print Assumptions C61_cutoff_disturbs_refuted.
Print Assumptions C61_str. Print Assumptions C61_str_refuted.
