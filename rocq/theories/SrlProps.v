(* C73: scripts/srclist.py and aipy/cal.py. *)
From Coq Require Import Reals Lra Ascii String QArith Permutation.
From Verif Require Import Base ScriptModel ScriptSpec PrmModel PrmSpec PrmProofs PrmProps RfModel SrlModel SrlSpec.
Open Scope R_scope.
Local Notation length := List.length.

Lemma within_arc lo hi x : turn lo -> turn hi -> turn x -> within lo hi x = true <-> on_arc lo hi x.
Proof.
  unfold turn. intros L H X. unfold within, on_arc. pose proof PI_RGT_0 as PP. split.
  - intros W. destruct (Rlt_dec lo hi) as [LH|LH].
    + destruct (Rlt_dec lo x); [|discriminate]. destruct (Rlt_dec x hi); [|discriminate]. exists (hi - lo), (x - lo). split; [lra|]. split; [lra|]. split; exists 0%Z; cbn; lra.
    + exists (hi - lo + 2 * PI). destruct (Rlt_dec lo x).
      * exists (x - lo). split; [lra|]. split; [lra|]. split; [exists (-1)%Z|exists 0%Z]; cbn; lra.
      * destruct (Rlt_dec x hi); [|discriminate]. exists (x - lo + 2 * PI). split; [lra|]. split; [lra|]. split; exists (-1)%Z; cbn; lra.
  - intros (w & t & W & T & (z & Z1) & (y & Y1)).
    assert (B : forall k : Z, (IZR k < 1 -> -2 < IZR k -> k = 0%Z \/ k = (-1)%Z)).
    { intros k A C. apply lt_IZR in A. apply (lt_IZR (-2)) in C. lia. }
    assert (ZB : z = 0%Z \/ z = (-1)%Z).
    { apply B; apply (Rmult_lt_reg_l (2 * PI)); lra. }
    assert (YB : y = 0%Z \/ y = (-1)%Z).
    { apply B; apply (Rmult_lt_reg_l (2 * PI)); lra. }
    destruct (Rlt_dec lo hi), (Rlt_dec lo x), (Rlt_dec x hi); try reflexivity; exfalso; destruct ZB as [-> | ->], YB as [-> | ->]; cbn in *; lra.
Qed.
Lemma within_dec a b x : within a b x = true <-> in_dec a b x.
Proof.
  unfold within, in_dec. destruct (Rlt_dec a b), (Rlt_dec a x), (Rlt_dec x b); split; intros H; try discriminate; try reflexivity; try (split; intros; lra); exfalso; destruct H as [A B]; try (specialize (A r); lra); destruct B; lra.
Qed.
(* ---------- strings ---------- *)
Lemma ascii_nat a b : nat_of_ascii a = nat_of_ascii b -> a = b.
Proof. intros H. rewrite <- (ascii_nat_embedding a), <- (ascii_nat_embedding b), H. reflexivity. Qed.
Lemma leb_before a : forall b, str_leb a b = true <-> a = b \/ before a b.
Proof.
  induction a as [|x a IH]; intros [|y b]; cbn [str_leb].
  - split; auto.
  - split; [intros _; right; constructor|auto].
  - split; [discriminate|]. intros [H|H]; [discriminate|inversion H].
  - destruct (Nat.eqb_spec (nat_of_ascii x) (nat_of_ascii y)) as [E|E].
    + apply ascii_nat in E as ->. rewrite IH. split.
      * intros [->|H]; [auto|right; apply before_rest; assumption].
      * intros [H|H]; [injection H; auto|]. inversion H; subst; [lia|auto].
    + rewrite Nat.ltb_lt. split; [intros H; right; constructor; exact H|]. intros [H|H]; [congruence|]. inversion H; subst; [assumption|congruence].
Qed.
Lemma leb_total a : forall b, str_leb a b = false -> before b a.
Proof.
  induction a as [|x a IH]; intros [|y b]; cbn [str_leb]; intros H; try discriminate; [constructor|].
  destruct (Nat.eqb_spec (nat_of_ascii x) (nat_of_ascii y)) as [E|E]; [apply ascii_nat in E as ->; apply before_rest, IH, H|]. apply Nat.ltb_ge in H. constructor. lia.
Qed.
Lemma before_trans a : forall b c, before a b -> before b c -> before a c.
Proof.
  induction a as [|x a IH]; intros b c H K.
  - inversion H; subst. inversion K; subst; constructor.
  - inversion H; subst; inversion K; subst; try (apply before_char; lia); try (apply before_char; assumption). apply before_rest. eapply IH; eauto.
Qed.
Lemma insert_in s l n : In n (insert_s s l) <-> n = s \/ In n l.
Proof. induction l as [|a l IH]; cbn [insert_s]; [cbn; intuition|]. destruct (str_leb s a); cbn [In]; [intuition|]. rewrite IH. intuition. Qed.
Lemma insert_ordered s l : ordered l -> ~ In s l -> ordered (insert_s s l).
Proof.
  induction 1 as [|a l A O IH]; intros N; cbn [insert_s]; [constructor; [intros b []|constructor]|]. destruct (str_leb s a) eqn:E.
  - apply leb_before in E as [->|E]; [exfalso; apply N; left; reflexivity|]. constructor; [|constructor; assumption]. intros b [<-|I]; [exact E|]. eapply before_trans; [exact E|apply A, I].
  - apply leb_total in E. constructor; [|apply IH; intros I; apply N; right; exact I]. intros b I. apply insert_in in I as [->|I]; [exact E|apply A, I].
Qed.
Lemma sort_in l n : In n (sort_s l) <-> In n l.
Proof. induction l as [|a l IH]; [reflexivity|]. cbn [sort_s fold_right]. fold (sort_s l). rewrite insert_in, IH. cbn [In]. intuition. Qed.
Lemma sort_ordered l : NoDup l -> ordered (sort_s l).
Proof. induction 1 as [|a l N D IH]; [constructor|]. cbn [sort_s fold_right]. apply insert_ordered; [exact IH|]. fold (sort_s l). rewrite sort_in. exact N. Qed.
Lemma joined_divided d l : divided d l (joined d l).
Proof. induction l as [|a [|b l] IH]; cbn [joined]; [constructor|constructor|]. apply divided_more. exact IH. Qed.
(* ---------- what is chosen ---------- *)
Lemma has_name_in c n : has_name c n = true <-> exists s, In (n, s) c.
Proof.
  unfold has_name. induction c as [|[m s] c IH]; cbn [dget]; [split; [discriminate|intros (s & [])]|]. destruct (str_eqb m n) eqn:E.
  - apply str_eqb_eq in E as ->. split; [intros _; exists s; left; reflexivity|reflexivity].
  - rewrite IH. split; intros (s' & I); [exists s'; right; exact I|]. destruct I as [I|I]; [|exists s'; exact I]. injection I as -> ->. exfalso. assert (str_eqb n n = true) by (apply str_eqb_eq; reflexivity). congruence.
Qed.
Lemma placed_in py2 dated c : (py2 = true \/ dated = true \/ forall e, In e c -> s_fixed (snd e) = true) ->
  exists c', placed py2 dated c = Ok c' /\ (forall e, In e c' <-> In e c /\ (dated = false -> s_fixed (snd e) = true)) /\ (NoDup (map fst c) -> NoDup (map fst c')).
Proof.
  intros H. unfold placed. destruct dated; [exists c; split; [reflexivity|split; [intuition congruence|auto]]|]. destruct (forallb _ c) eqn:F.
  - exists c. split; [reflexivity|]. rewrite forallb_forall in F. split; [|auto]. intros e. split; [intros I; split; [exact I|intros _; apply F, I]|intros [I _]; exact I].
  - assert (P2 : py2 = true). { destruct H as [H|[H|H]]; [exact H|discriminate|]. assert (forallb (fun e : str * source => s_fixed (snd e)) c = true) by (apply forallb_forall; exact H). congruence. }
    rewrite P2. eexists. split; [reflexivity|]. split; [intros e; rewrite filter_In; intuition|]. clear. induction c as [|e c IH]; cbn [filter map]; intros N; [constructor|]. inversion N as [|? ? A B]; subst. destruct (s_fixed (snd e)); [|apply IH, B].
    cbn [map]. constructor; [|apply IH, B]. intros I. apply A. apply in_map_iff in I as (q & E & I). apply filter_In in I as [I _]. rewrite <- E. apply in_map, I.
Qed.
Lemma filter_nodup {A B} (f : A -> B) p l : NoDup (map f l) -> NoDup (map f (filter p l)).
Proof.
  induction l as [|a l IH]; cbn [filter map]; intros N; [constructor|]. inversion N as [|? ? H D]; subst. destruct (p a); [|apply IH, D]. cbn [map]. constructor; [|apply IH, D].
  intros I. apply H. apply in_map_iff in I as (q & E & I). apply filter_In in I as [I _]. rewrite <- E. apply in_map, I.
Qed.
Lemma chosen_nodup sepn c x y sep ra dec : NoDup (map fst c) -> NoDup (map fst c) -> NoDup (chosen sepn c x y sep ra dec).
Proof.
  intros N _. unfold chosen. destruct sep as [d|], ra as [[a b]|], dec as [[a' b']|]; repeat apply filter_nodup; exact N.
Qed.
Lemma opt_filter {A} (o : option A) (p : A -> str * source -> bool) l e : In e (match o with None => l | Some a => filter (p a) l end) <-> In e l /\ forall a, o = Some a -> p a e = true.
Proof. destruct o as [a|]; [rewrite filter_In|]; split; [intros [I P]; split; [exact I|intros b E; injection E as <-; exact P]|intros [I P]; auto|intros I; split; [exact I|discriminate]|tauto]. Qed.
Lemma chosen_in sepn c x y sep ra dec n : In n (chosen sepn c x y sep ra dec) <-> exists s, In (n, s) c /\ has_name x n = false /\
  (forall d, sep = Some d -> exists e, In e y /\ sepn s (snd e) <= d * (PI / 180)) /\ (forall a, ra = Some a -> within (fst a) (snd a) (s_ra s) = true) /\ forall a, dec = Some a -> within (fst a) (snd a) (s_dec s) = true.
Proof.
  unfold chosen.
  set (l1 := filter _ c). set (l2 := match sep with None => l1 | Some d => _ end).
  assert (E3 : forall l, match ra with None => l | Some (a, b) => filter (fun e : str * source => within a b (s_ra (snd e))) l end = match ra with None => l | Some a => filter ((fun a (e : str * source) => within (fst a) (snd a) (s_ra (snd e))) a) l end) by (intros; destruct ra as [[a b]|]; reflexivity).
  assert (E4 : forall l, match dec with None => l | Some (a, b) => filter (fun e : str * source => within a b (s_dec (snd e))) l end = match dec with None => l | Some a => filter ((fun a (e : str * source) => within (fst a) (snd a) (s_dec (snd e))) a) l end) by (intros; destruct dec as [[a b]|]; reflexivity).
  rewrite E3, E4. rewrite in_map_iff.
  assert (L2 : forall e, In e l2 <-> In e c /\ has_name x (fst e) = false /\ forall d, sep = Some d -> exists q, In q y /\ sepn (snd e) (snd q) <= d * (PI / 180)).
  { intros e. unfold l2. rewrite (opt_filter sep (fun d (e : str * source) => existsb (fun c : str * source => if Rle_dec (sepn (snd e) (snd c)) (d * (PI / 180)) then true else false) y)). unfold l1. rewrite filter_In, Bool.negb_true_iff.
    assert (X : forall d, existsb (fun c : str * source => if Rle_dec (sepn (snd e) (snd c)) (d * (PI / 180)) then true else false) y = true <-> exists q, In q y /\ sepn (snd e) (snd q) <= d * (PI / 180)).
    { intros d. rewrite existsb_exists. split; intros (q & I & H); exists q; split; auto; destruct (Rle_dec (sepn (snd e) (snd q)) (d * (PI / 180))); auto; discriminate. }
    split; [intros [[A B] H]; split; [exact A|split; [exact B|intros d E; apply X, H, E]]|intros (A & B & H); split; [auto|intros d E; apply X, H, E]]. }
  split.
  - intros ([m s] & E & I). cbn [fst] in E. subst m. exists s. rewrite !opt_filter, L2 in I. cbn [fst snd] in I. tauto.
  - intros (s & A & B & H1 & H2 & H3). exists (n, s). split; [reflexivity|]. rewrite !opt_filter, L2. cbn [fst snd]. tauto.
Qed.
Definition deg_ok (a b : R) : Prop := turn a /\ turn b.
Lemma degrees a d : a <= d * (PI / 180) <-> a * 180 / PI <= d.
Proof.
  pose proof PI_RGT_0 as P. split; intros H.
  - apply (Rmult_le_reg_r PI); [exact P|]. replace (a * 180 / PI * PI) with (a * 180) by (field; lra). lra.
  - apply (Rmult_le_compat_r PI) in H; [|lra]. replace (a * 180 / PI * PI) with (a * 180) in H by (field; lra). lra.
Qed.
Definition ready (py2 dated : bool) (c : list (str * source)) : Prop := py2 = true \/ dated = true \/ forall e, In e c -> s_fixed (snd e) = true.
Definition given (c : option (list (str * source))) : list (str * source) := match c with Some l => l | None => [] end.
(* the list printed, sorted and divided, is that of the sources wanted *)
Theorem C73_listed py2 cat xcat ccat dated sepn sep ra dec div show : NoDup (map fst cat) -> ready py2 dated cat -> ready py2 dated (given xcat) -> ready py2 dated (given ccat) ->
  (ccat <> None -> sep <> None) -> (forall lo hi, ra = Some (lo, hi) -> turn lo /\ turn hi /\ forall e, In e cat -> turn (s_ra (snd e))) ->
  exists l t, run py2 (Ok cat) (option_map Ok xcat) (option_map Ok ccat) dated sepn sep ra dec (Names div) show = Ok t /\ divided div l t /\ ordered l /\
    forall n, In n l <-> exists s, wanted sepn dated cat (given xcat) (given ccat) sep ra dec n s.
Proof.
  intros N R1 R2 R3 CS TU. destruct (placed_in py2 dated cat R1) as (c & E1 & I1 & N1). destruct (placed_in py2 dated _ R2) as (x & E2 & I2 & _). destruct (placed_in py2 dated _ R3) as (y & E3 & I3 & _).
  exists (sort_s (chosen sepn c x y sep ra dec)), (joined div (sort_s (chosen sepn c x y sep ra dec))).
  split; [|split; [apply joined_divided|split; [apply sort_ordered, chosen_nodup; apply N1, N|]]].
  - unfold run. cbn [bind]. replace (match option_map Ok xcat with None => Ok [] | Some x => x end) with (Ok (given xcat)) by (destruct xcat; reflexivity). cbn [bind].
    replace (match option_map Ok ccat with None => Ok [] | Some y => match sep with None => Err | Some _ => y end end) with (Ok (given ccat)).
    + cbn [bind]. rewrite E1. cbn [bind]. rewrite E2. cbn [bind]. rewrite E3. reflexivity.
    + destruct ccat as [l|]; cbn; [|reflexivity]. destruct sep; [reflexivity|]. exfalso. apply CS; [discriminate|reflexivity].
  - intros n. rewrite sort_in, chosen_in. split; intros (s & H); exists s.
    + destruct H as (A & B & S & RA & DE). apply I1 in A as [A AF]. constructor; auto.
      * intros s' I. destruct dated.
        -- exfalso. assert (has_name x n = true) by (apply has_name_in; exists s'; apply I2; split; [exact I|discriminate]). congruence.
        -- split; [reflexivity|]. destruct (s_fixed s') eqn:F; [|reflexivity]. exfalso. assert (has_name x n = true) by (apply has_name_in; exists s'; apply I2; split; [exact I|intros _; exact F]). congruence.
      * intros d D. destruct (S d D) as ([n' q] & I & H). apply I3 in I as [I IF]. exists n', q. split; [exact I|]. split; [exact IF|]. apply degrees. exact H.
      * intros lo hi E. destruct (TU lo hi E) as (T1 & T2 & T3). apply within_arc; auto; [apply (T3 (n, s)), A|]. apply (RA (lo, hi) E).
      * intros lo hi E. apply within_dec. apply (DE (lo, hi) E).
    + destruct H as [A AF B S RA DE]. split; [apply I1; auto|]. split; [|split; [|split]].
      * destruct (has_name x n) eqn:H; [|reflexivity]. apply has_name_in in H as (s' & I). apply I2 in I as [I F]. destruct (B s' I) as [D F2]. cbn [snd] in F. rewrite F in F2 by exact D. discriminate.
      * intros d D. destruct (S d D) as (n' & q & I & IF & H). exists (n', q). split; [apply I3; auto|]. apply degrees. exact H.
      * intros [lo hi] E. destruct (TU lo hi E) as (T1 & T2 & T3). apply within_arc; auto. apply (T3 (n, s)), A.
      * intros [lo hi] E. apply within_dec. apply DE, E.
Qed.
Print Assumptions C73_listed.
(* finding: a separation without centres lists nothing *)
Theorem C73_sep_alone_refuted py2 cat xcat dated sepn d ra dec div show : ready py2 dated cat -> ready py2 dated (given xcat) ->
  run py2 (Ok cat) (option_map Ok xcat) None dated sepn (Some d) ra dec (Names div) show = Ok [].
Proof.
  intros R1 R2. destruct (placed_in py2 dated cat R1) as (c & E1 & _). destruct (placed_in py2 dated _ R2) as (x & E2 & _).
  unfold run. cbn [bind]. replace (match option_map Ok xcat with None => Ok [] | Some x => x end) with (Ok (given xcat)) by (destruct xcat; reflexivity). cbn [bind]. rewrite E1. cbn [bind]. rewrite E2. cbn [bind].
  replace (placed py2 dated []) with (Ok (@nil (str * source))) by (unfold placed; destruct dated; reflexivity). cbn [bind].
  destruct (chosen sepn c x [] (Some d) ra dec) as [|n l] eqn:E; [reflexivity|]. assert (I : In n (chosen sepn c x [] (Some d) ra dec)) by (rewrite E; left; reflexivity).
  apply chosen_in in I as (s & _ & _ & H & _). destruct (H d eq_refl) as (q & [] & _).
Qed.
Print Assumptions C73_sep_alone_refuted.
(* finding: without a date, a source that is not fixed (the Sun) ends the run in Python 3 *)
Theorem C73_special_refuted cat xcat ccat sepn sep ra dec m show n s : In (n, s) cat -> s_fixed s = false -> run false (Ok cat) xcat ccat false sepn sep ra dec m show = Err.
Proof.
  intros I F. assert (E : placed false false cat = Err).
  { unfold placed. destruct (forallb _ cat) eqn:A; [|reflexivity]. rewrite forallb_forall in A. specialize (A _ I). cbn in A. congruence. }
  unfold run. cbn [bind]. destruct (match xcat with None => Ok [] | Some x => x end); [|reflexivity]. cbn [bind]. destruct (match ccat with None => Ok [] | Some y => match sep with None => Err | Some _ => y end end); [|reflexivity]. cbn [bind]. rewrite E. reflexivity.
Qed.
Print Assumptions C73_special_refuted.
(* finding: parameters are printed in Python 2 only *)
Theorem C73_params_refuted cat xcat ccat dated sepn sep ra dec div t show : run false cat xcat ccat dated sepn sep ra dec (Names div) show = Ok t -> t <> [] ->
  run false cat xcat ccat dated sepn sep ra dec Params show = Err.
Proof.
  unfold run. destruct cat as [c|]; [|discriminate]. cbn [bind]. destruct (match xcat with None => Ok [] | Some x => x end); [|discriminate]. cbn [bind]. destruct (match ccat with None => Ok [] | Some y => match sep with None => Err | Some _ => y end end); [|discriminate]. cbn [bind].
  destruct (placed false dated c); [|discriminate]. cbn [bind]. destruct (placed false dated a); [|discriminate]. cbn [bind]. destruct (placed false dated a0); [|discriminate]. cbn [bind].
  intros E NE. destruct (sort_s _); [|reflexivity]. cbn in E. congruence.
Qed.
Print Assumptions C73_params_refuted.
(* a range of right ascensions through zero has zero in it and not the half turn; a source in it is wanted, one that is excluded is not *)
Example C73_arc_ex : on_arc (3 * PI / 2) (PI / 2) 0 /\ within (3 * PI / 2) (PI / 2) 0 = true /\ within (3 * PI / 2) (PI / 2) PI = false.
Proof.
  pose proof PI_RGT_0 as P. split; [|split].
  - exists PI, (PI / 2). split; [lra|]. split; [lra|]. split; exists (-1)%Z; lra.
  - unfold within. destruct (Rlt_dec (3 * PI / 2) (PI / 2)); [lra|]. destruct (Rlt_dec (3 * PI / 2) 0); [lra|]. destruct (Rlt_dec 0 (PI / 2)); [reflexivity|lra].
  - unfold within. destruct (Rlt_dec (3 * PI / 2) (PI / 2)); [lra|]. destruct (Rlt_dec (3 * PI / 2) PI); [lra|]. destruct (Rlt_dec PI (PI / 2)); [lra|reflexivity].
Qed.
Example C73_wanted_ex : let cat := [(lit "cyg", Source 0 1 true); (lit "cas", Source 0 1 true); (lit "vir", Source PI 1 true)] in
  wanted (fun _ _ => 0) false cat [(lit "cyg", Source 0 1 true)] [] None (Some (3 * PI / 2, PI / 2)) None (lit "cas") (Source 0 1 true) /\
  run false (Ok cat) (Some (Ok [(lit "cyg", Source 0 1 true)])) None false (fun _ _ => 0) None (Some (3 * PI / 2, PI / 2)) None (Names (lit ",")) (fun _ => []) = Ok (lit "cas").
Proof.
  destruct C73_arc_ex as (A & B & C). cbv zeta. split.
  - constructor; try discriminate; [right; left; reflexivity|reflexivity|intros s' [E|[]]; discriminate|]. intros lo hi E. injection E as <- <-. exact A.
  - unfold run, placed, chosen. cbn [bind forallb s_fixed snd andb]. cbn - [within PI Rdiv Rmult]. rewrite B, C. reflexivity.
Qed.
