(* Proofs about HcopyModel. *)
From Verif Require Import Base PackModel PackProofs HioModel HioSpec HioProofs HioProofs2 TreeModel TreeSpec TreeProofs TreeProofs2.
From Coq Require Import String Ascii.
From Verif Require Import HdrModel HdrProofs HdrProofs2 HdrProofs3 HcopyModel.
From Verif Require HdrSpec HcopySpec.
Import HcopySpec (hdr, setitem, own_text, named, given, inherit, after_op, after, answer, answers, ascii_text, sys_item, op_ok, wop_ok, all_ok).
Ltac Zify.zify_post_hook ::= idtac.
Open Scope Z_scope.
Local Notation length := List.length.

Section W.
Variable narrow widen : Z -> Z.
Hypothesis narrow_range : forall x, 0 <= narrow x < 2 ^ 32.
Hypothesis widen_range : forall x, 0 <= x < 2 ^ 32 -> 0 <= widen x < 2 ^ 64.
Variable junk : Z -> Z.
Variable bsz : entry -> Z.
Hypothesis bsz_range : forall e, 0 <= bsz e <= 64.

Definition none_skipped (n : string) : Prop := False.
Definition HI (t : tree) (h : hdr) : Prop := exists V, VIx narrow none_skipped t V /\ forall n, HdrSpec.vlook V n = h n.

Lemma elem_back t e : HdrSpec.elem_ok t e -> HdrSpec.elem_ok t (HdrSpec.stored narrow widen e).
Proof.
  destruct t, e; cbn [HdrSpec.elem_ok HdrSpec.stored]; try tauto. intros _.
  split; apply widen_range, narrow_range.
Qed.
Lemma elem_same t e : t = II \/ t = ID -> HdrSpec.elem_ok t e -> HdrSpec.stored narrow widen e = e.
Proof. intros [-> | ->]; destruct e; cbn; tauto. Qed.
Lemma freqs_back l : forall k, HdrSpec.freqs_ok k l -> map (HdrSpec.stored narrow widen) l = l.
Proof.
  induction l as [|e l IH]; intros k H; [reflexivity|]. destruct H as [H1 H2]. cbn [map].
  rewrite (IH _ H2), (elem_same (match k with O => II | _ => ID end)); [reflexivity|destruct k; tauto|exact H1].
Qed.

Lemma val_back n v : HdrSpec.val_ok n v -> HdrSpec.val_ok n (HdrSpec.back narrow widen n v).
Proof.
  unfold HdrSpec.val_ok. destruct (HdrSpec.kind n) as [t|] eqn:K; [|tauto].
  assert (P : t <> IA -> t <> IQ -> (exists e, v = Scalar e /\ HdrSpec.elem_ok t e) \/
              (exists l, v = Seq l /\ Forall (HdrSpec.elem_ok t) l /\ HdrSpec.room (List.length l)) ->
     (exists e, HdrSpec.back narrow widen n v = Scalar e /\ HdrSpec.elem_ok t e) \/
     (exists l, HdrSpec.back narrow widen n v = Seq l /\ Forall (HdrSpec.elem_ok t) l /\ HdrSpec.room (List.length l))).
  { intros NA NQ [(e & -> & He)|(l & -> & Hl & Hr)].
    - left. eexists. split; [reflexivity|]. now apply elem_back.
    - destruct l as [|a [|b l]].
      + right. exists []. auto.
      + cbn [HdrSpec.back]. destruct (String.eqb_spec n "freqs") as [->|_]; [vm_compute in K; congruence|].
        left. eexists. split; [reflexivity|]. apply elem_back. now inversion Hl.
      + right. eexists. split; [reflexivity|]. split; [|now rewrite map_length].
        rewrite Forall_map. eapply Forall_impl; [|exact Hl]. intros x. apply elem_back. }
  destruct t; try (apply P; discriminate); clear P.
  - intros (s & -> & H). exists s. split; [reflexivity|exact H].
  - intros (e & l & -> & He & Hl & Hr). exists e, l. split; [|auto].
    assert (N : n = "freqs"%string).
    { revert K. unfold HdrSpec.kind. cbn [existsb].
      repeat match goal with |- context [String.eqb n ?m] => destruct (String.eqb_spec n m); [subst; try (cbn; discriminate); reflexivity|cbn [orb]] end.
      discriminate. }
    destruct l as [|a l]; cbn [HdrSpec.back].
    + subst n. reflexivity.
    + f_equal. cbn [map]. rewrite (elem_same II) by (auto || exact He). f_equal. now apply (freqs_back (a :: l) 0%nat).
Qed.

Lemma HI_set t h n v : HI t h -> HdrSpec.val_ok n v ->
  exists t', uset narrow junk bsz n v t = Ok t' /\ HI t' (setitem h n v).
Proof.
  intros (V & HV & E) O. destruct (uset_ok narrow widen narrow_range junk bsz bsz_range _ t V n v HV O) as (t' & E' & HV').
  exists t'. split; [exact E'|]. exists ((n, v) :: V). split; [exact HV'|]. intro m. cbn [HdrSpec.vlook]. unfold setitem.
  destruct (String.eqb n m); [reflexivity|apply E].
Qed.
Lemma HI_get t h n : HI t h ->
  uget widen junk n t = Ok (t, match h n with Some v => Some (HdrSpec.back narrow widen n v) | None => None end).
Proof.
  intros (V & HV & E). rewrite (uget_ok narrow widen narrow_range junk _ t V n HV); [now rewrite E|intros []].
Qed.
Lemma HI_val t h n v : HI t h -> h n = Some v -> HdrSpec.val_ok n v.
Proof.
  intros (V & (D & HT & HK & HN & HV) & E) H. rewrite <- E in H. destruct (type_of n) as [ty|] eqn:T; [|rewrite HN in H by assumption; discriminate].
  specialize (HV n ty T (fun F => F)). rewrite H in HV. apply HV.
Qed.
Lemma HI_has t h n ty : HI t h -> type_of n = Some ty ->
  exists x, t_get (codes n) t = (t, x) /\ match x with Some _ => true | None => false end = match h n with Some _ => true | None => false end.
Proof.
  intros (V & (D & HT & HK & HN & HV) & E) T. rewrite (get_spec t D _ HT). eexists. split; [reflexivity|].
  specialize (HV n ty T (fun F => F)). rewrite E in HV. destruct (h n).
  - destruct HV as (_ & d & -> & _). reflexivity.
  - rewrite HV. reflexivity.
Qed.
Lemma HI_type t h n v : HI t h -> h n = Some v -> exists ty, type_of n = Some ty.
Proof.
  intros (V & (D & HT & HK & HN & HV) & E) H. destruct (type_of n) eqn:T; [eauto|]. rewrite <- E, HN in H by assumption. discriminate.
Qed.
Lemma HI_ext t h h' : HI t h -> (forall n, h n = h' n) -> HI t h'.
Proof. intros (V & HV & E) X. exists V. split; [exact HV|]. intro n. rewrite E. apply X. Qed.

(* the text the library writes *)
Lemma rep_text s : ascii_text s -> Rep narrow IA (Text s) s.
Proof.
  intro A. unfold Rep. cbn [layout elements].
  assert (G : forall q p s', s' = p ++ q -> Forall (fun c => 0 < c < 128) q ->
     lend (zlen p) (fields narrow 1 (zlen p) (map (pair IA) (map (fun c => EStr [c]) q))) = zlen s' /\
     Forall (holdsL s') (fields narrow 1 (zlen p) (map (pair IA) (map (fun c => EStr [c]) q)))).
  { clear. induction q as [|c q IH]; intros p s' -> F; cbn [map fields lend].
    - split; [now rewrite app_nil_r|constructor].
    - inversion F as [|? ? Fc Fq]; subst. cbn [fst snd]. unfold f_off, f_bs; cbn [fst snd].
      assert (EB : encb narrow IA (EStr [c]) = [c]).
      { unfold encb, enc, utf8, utf8_char. cbn [flat_map length]. replace (c <? 128) with true by lia. reflexivity. }
      rewrite EB. change (zlen [c]) with 1.
      assert (Z1 : zlen (p ++ [c]) = zlen p + 1) by (unfold zlen; rewrite app_length; cbn [length]; lia).
      destruct (IH (p ++ [c]) (p ++ c :: q)) as [L H]; [now rewrite <- app_assoc|assumption|]. rewrite Z1 in L, H.
      split; [exact L|]. constructor; [|exact H]. unfold holdsL, f_off, f_bs; cbn [fst snd]. change (zlen [c]) with 1.
      unfold zlen. rewrite app_length. cbn [length]. split; [lia|]. split; [lia|]. intros k Hk. replace k with 0 by lia.
      rewrite Z.add_0_r, Nat2Z.id, nth_middle. reflexivity. }
  destruct (G s [] s eq_refl A) as [G1 G2]. split; [symmetry; exact G1|exact G2].
Qed.

Lemma HI_own t h p : HI t h -> sys_item p -> HI (t_set (fst p) (snd p) t) (own_text h p).
Proof.
  destruct p as [k d]. intros (V & (D & HT & HK & HN & HV) & E) (F1 & F2 & F3). cbn [fst snd] in *.
  apply in_map_iff in F1 as (m & <- & Hm).
  assert (IN : In m all_names) by (apply in_or_app; right; assumption).
  assert (TT : TI (t_set (codes m) d t) (insert D (codes m) d)).
  { apply set_spec; [assumption|now apply all_legal|intros _; exact F2|now apply KD_len]. }
  assert (KK : KD (insert D (codes m) d)) by now apply KD_insert.
  assert (TX : m = "vartable"%string \/ m = "obstype"%string -> type_of m = Some IA /\ HdrSpec.kind m = Some IA) by (intros [-> | ->]; split; reflexivity).
  assert (C : (m = "vartable"%string \/ m = "obstype"%string) \/ type_of m = None).
  { unfold HdrSpec.own_names in Hm. cbn in Hm. repeat destruct Hm as [<-|Hm]; try tauto; right; reflexivity. }
  destruct C as [C|C].
  - assert (VO : HdrSpec.val_ok m (Text d)).
    { unfold HdrSpec.val_ok. destruct (TX C) as [_ ->]. exists d. destruct F3 as [A1 A2]; [destruct C as [-> | ->]; auto|]. auto. }
    exists ((m, Text d) :: V). split.
    + exists (insert D (codes m) d). split; [exact TT|]. split; [exact KK|]. split.
      * intros n Tn. cbn [HdrSpec.vlook]. destruct (String.eqb_spec m n); [subst; destruct (TX C); congruence|auto].
      * intros n ty Tn _. cbn [HdrSpec.vlook]. rewrite lookup_insert. destruct (String.eqb_spec m n) as [<-|NE].
        -- destruct (key_dec (codes m) (codes m)); [|congruence]. split; [exact VO|]. exists d. split; [reflexivity|].
           destruct (TX C) as [T _]. rewrite T in Tn. injection Tn as <-. apply rep_text. apply F3. destruct C as [-> | ->]; auto.
        -- destruct (key_dec (codes n) (codes m)) as [X|_]; [apply codes_inj in X; congruence|]. apply (HV n ty Tn). intros [].
    + intro n. cbn [HdrSpec.vlook]. unfold own_text. cbn [fst snd].
      destruct C as [-> | ->].
      * destruct (list_eq_dec Z.eq_dec (codes "vartable") (codes "vartable")); [|congruence]. unfold setitem. now rewrite E.
      * destruct (list_eq_dec Z.eq_dec (codes "obstype") (codes "vartable")) as [X|_]; [apply codes_inj in X; discriminate|].
        destruct (list_eq_dec Z.eq_dec (codes "obstype") (codes "obstype")); [|congruence]. unfold setitem. now rewrite E.
  - exists V. split.
    + exists (insert D (codes m) d). split; [exact TT|]. split; [exact KK|]. split; [exact HN|].
      intros n ty Tn _. rewrite lookup_insert. destruct (key_dec (codes n) (codes m)) as [X|_]; [apply codes_inj in X; congruence|]. apply (HV n ty Tn). intros [].
    + intro n. rewrite E. unfold own_text. cbn [fst snd].
      destruct (list_eq_dec Z.eq_dec (codes m) (codes "vartable")) as [X|_]; [apply codes_inj in X; subst m; discriminate|].
      destruct (list_eq_dec Z.eq_dec (codes m) (codes "obstype")) as [X|_]; [apply codes_inj in X; subst m; discriminate|]. reflexivity.
Qed.

Lemma HI_sys sys : forall t h, HI t h -> Forall sys_item sys ->
  HI (fold_left (fun a p => t_set (fst p) (snd p) a) sys t) (fold_left own_text sys h).
Proof.
  induction sys as [|p sys IH]; intros t h H F; [exact H|]. inversion F; subst. cbn [fold_left]. apply IH; [|assumption]. now apply HI_own.
Qed.

(* one call on one data set *)
Lemma one_op t h o : HI t h -> op_ok o ->
  exists t', v_step narrow widen junk bsz t o = (Some t', answer narrow widen (fun _ => h) (On 0 o)) /\ HI t' (after_op h o).
Proof.
  intros H O. destruct o as [n v|n|n|j sys]; cbn [v_step answer after_op op_ok] in *.
  - destruct (HI_set t h n v H O) as (t' & -> & H'). eauto.
  - rewrite (HI_get t h n H). destruct (h n); eauto.
  - destruct (type_of n) as [ty|] eqn:T.
    + destruct (HI_has t h n ty H T) as (x & -> & ->). eauto.
    + exists t. split; [|exact H]. destruct (h n) eqn:E; [|reflexivity]. destruct (HI_type t h n _ H E). congruence.
  - destruct (HI_sys sys t h H O) as (V & (D & HT & HK & HN & HV) & E).
    destruct (reopen_spec j _ D HT) as (t' & -> & HT'). exists t'. split; [reflexivity|]. exists V. split; [|exact E]. exists D. auto.
Qed.

(* the loop over items *)
Lemma present_ok l : forall t h, HI t h -> (forall n, In n l -> exists ty, type_of n = Some ty) ->
  present l t = (t, filter (fun n => match h n with Some _ => true | None => false end) l).
Proof.
  induction l as [|n l IH]; intros t h H T; [reflexivity|]. cbn [present filter].
  destruct (T n (or_introl eq_refl)) as [ty Tn]. destruct (HI_has t h n ty H Tn) as (x & -> & E).
  rewrite (IH t h H) by (intros m Hm; apply T; now right). rewrite <- E. destruct x; reflexivity.
Qed.

Lemma assoc_given ov n : assoc ov n = given ov n.
Proof. induction ov as [|[m v] r IH]; [reflexivity|]. cbn. now rewrite IH. Qed.
Lemma given_ok ov n v : Forall (fun p => HdrSpec.val_ok (fst p) (snd p)) ov -> given ov n = Some v -> HdrSpec.val_ok n v.
Proof.
  intros F. induction F as [|[m x] r F1 F IH]; cbn [given]; [discriminate|]. destruct (String.eqb_spec m n) as [<-|_]; [|exact IH].
  intro E. injection E as <-. exact F1.
Qed.

Lemma copy_ok ov ex src s : HI src s -> Forall (fun p => HdrSpec.val_ok (fst p) (snd p)) ov ->
  forall ks dst d, HI dst d -> (forall k, In k ks -> s k <> None) ->
  exists dst', copy_items narrow widen junk bsz ov ex ks src dst = Ok (src, dst') /\
    HI dst' (fun n => if existsb (String.eqb n) ks then inherit narrow widen ov ex s d n else d n).
Proof.
  intros HS FO. induction ks as [|k ks IH]; intros dst d HD P.
  - exists dst. split; [reflexivity|]. exact HD.
  - assert (P' : forall k, In k ks -> s k <> None) by (intros m Hm; apply P; now right).
    cbn [copy_items]. destruct (existsb (String.eqb k) ex) eqn:EX.
    + destruct (IH dst d HD P') as (dst' & E & H'). exists dst'. split; [exact E|]. eapply HI_ext; [exact H'|].
      intro n. cbn [existsb]. destruct (String.eqb_spec n k) as [->|_]; [|reflexivity]. cbn [orb]. unfold inherit, named. rewrite EX.
      destruct (existsb (String.eqb k) ks); reflexivity.
    + assert (C : exists v, inherit narrow widen ov ex s d k = Some v /\ HdrSpec.val_ok k v /\
         copy_items narrow widen junk bsz ov ex (k :: ks) src dst = bind (uset narrow junk bsz k v dst) (fun a => copy_items narrow widen junk bsz ov ex ks src a)).
      { cbn [copy_items]. rewrite EX, assoc_given. unfold inherit, named. rewrite EX. specialize (P k (or_introl eq_refl)).
        destruct (s k) as [v|] eqn:SK; [|congruence]. destruct (given ov k) as [o|] eqn:G.
        - exists o. split; [reflexivity|]. split; [eapply given_ok; eassumption|reflexivity].
        - exists (HdrSpec.back narrow widen k v). split; [reflexivity|]. split; [apply val_back; exact (HI_val src s k v HS SK)|].
          rewrite (HI_get src s k HS), SK. reflexivity. }
      destruct C as (v & C1 & C2 & C3). cbn [copy_items] in C3. rewrite EX in C3. rewrite C3.
      destruct (HI_set dst d k v HD C2) as (dst1 & E1 & H1). rewrite E1. cbn [bind].
      destruct (IH dst1 _ H1 P') as (dst' & E & H'). exists dst'. split; [exact E|]. eapply HI_ext; [exact H'|].
      intro n. cbn [existsb]. unfold setitem at 1. unfold inherit, named, setitem.
      destruct (String.eqb_spec n k) as [->|NE].
      * cbn [orb]. rewrite String.eqb_refl. unfold inherit, named in C1. rewrite EX in C1 |- *. rewrite C1.
        specialize (P k (or_introl eq_refl)). destruct (s k); [|congruence]. destruct (existsb (String.eqb k) ks); [exact C1|reflexivity].
      * cbn [orb]. destruct (String.eqb_spec k n); [congruence|]. reflexivity.
Qed.

Lemma user_typed n : In n (map fst itemtable) -> exists ty, type_of n = Some ty.
Proof.
  intro H. unfold itemtable in H. cbn in H. repeat destruct H as [<-|H]; try (eexists; reflexivity). destruct H.
Qed.

Lemma init_ok ov ex src dst s d : HI src s -> HI dst d -> Forall (fun p => HdrSpec.val_ok (fst p) (snd p)) ov ->
  exists dst', init_from narrow widen junk bsz ov ex src dst = Ok (src, dst') /\ HI dst' (inherit narrow widen ov ex s d).
Proof.
  intros HS HD FO. unfold init_from, items. rewrite (present_ok _ src s HS user_typed).
  destruct (copy_ok ov ex src s HS FO (filter (fun n => match s n with Some _ => true | None => false end) (map fst itemtable)) dst d HD) as (dst' & E & H').
  { intros k Hk. apply filter_In in Hk as [_ Hk]. destruct (s k); congruence. }
  exists dst'. split; [exact E|]. eapply HI_ext; [exact H'|]. intro n. cbn beta.
  destruct (existsb (String.eqb n) _) eqn:EX; [reflexivity|]. unfold inherit. destruct (named n ex); [reflexivity|].
  destruct (s n) as [v|] eqn:SN; [|reflexivity]. exfalso.
  destruct (HI_type src s n v HS SN) as [ty T]. apply type_in in T.
  apply not_true_iff_false in EX. apply EX. apply existsb_exists. exists n. split; [|apply String.eqb_refl].
  apply filter_In. split; [exact T|]. now rewrite SN.
Qed.

Lemma history_ok s t h : HI t h -> ascii_text s ->
  match h "history"%string with Some (Text x) => HdrSpec.room (length x + length s) | _ => True end ->
  exists o, add_history narrow widen junk bsz s t = Ok o /\
    match o, h "history"%string with
    | Some t', Some (Text x) => HI t' (setitem h "history" (Text (x ++ s)))
    | None, None => True
    | _, _ => False
    end.
Proof.
  intros H A R. unfold add_history. rewrite (HI_get t h _ H). cbn [bind fst snd].
  destruct (h "history"%string) as [v|] eqn:E; [|exists None; auto].
  pose proof (HI_val t h _ v H E) as (x & -> & X1 & X2 & X3). cbn [HdrSpec.back].
  destruct (HI_set t h "history" (Text (x ++ s)) H) as (t' & E' & H').
  { exists (x ++ s). split; [reflexivity|]. split; [apply Forall_app; split; assumption|]. split; [now right|]. now rewrite app_length. }
  rewrite E'. exists (Some t'). auto.
Qed.

Theorem world_ok : forall ops w W, (forall i, HI (w i) (W i)) -> all_ok narrow widen W ops ->
  w_run narrow widen junk bsz w ops = answers narrow widen W ops.
Proof.
  induction ops as [|o ops IH]; intros w W H A; [reflexivity|]. destruct A as [A1 A2]. cbn [w_run answers].
  destruct o as [i o|i j ov ex|j s]; cbn [w_step wop_ok] in *.
  - destruct (one_op (w i) (W i) o (H i) A1) as (t' & -> & H'). f_equal.
    apply IH; [|exact A2]. intro k. unfold put. cbn [after]. destruct (Nat.eqb k i); [exact H'|apply H].
  - destruct A1 as [NE FO]. destruct (init_ok ov ex (w i) (w j) (W i) (W j) (H i) (H j) FO) as (d' & -> & H'). cbn [answer]. f_equal.
    apply IH; [|exact A2]. intro k. unfold put. cbn [after]. destruct (Nat.eqb_spec k j); [exact H'|].
    destruct (Nat.eqb_spec k i) as [->|_]; apply H.
  - destruct A1 as [A11 A12]. destruct (history_ok s (w j) (W j) (H j) A11 A12) as (o & -> & X). cbn [answer].
    destruct o as [t'|].
    + destruct (W j "history"%string) as [[e|l|x]|] eqn:E; try contradiction. f_equal. apply IH; [|exact A2].
      intro k. unfold put. cbn [after]. destruct (Nat.eqb k j); [rewrite E; exact X|apply H].
    + destruct (W j "history"%string) as [[e|l|x]|] eqn:E; try contradiction. f_equal. apply IH; [|exact A2].
      intro k. cbn [after]. destruct (Nat.eqb_spec k j) as [->|_]; [rewrite E|]; apply H.
Qed.

Lemma HI_new j : HI (t_new j) (fun _ => None).
Proof.
  exists []. split; [|reflexivity]. exists []. split; [apply TI_new|]. split; [split; [constructor|intros x []]|]. split; reflexivity.
Qed.
End W.
