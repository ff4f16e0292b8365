(* Proofs about HdrModel: histories of calls. *)
From Verif Require Import Base PackModel PackProofs HioModel HioSpec HioProofs HioProofs2 TreeModel TreeSpec TreeProofs TreeProofs2.
From Coq Require Import String Ascii.
From Verif Require Import HdrModel HdrProofs HdrProofs2.
From Verif Require HdrSpec.
Ltac Zify.zify_post_hook ::= idtac.
Open Scope Z_scope.
Local Notation length := List.length.

Definition user_names : list string := map fst itemtable.
Definition all_names : list string := user_names ++ HdrSpec.own_names.

(* ---------- names ---------- *)
Lemma Zof_inj a b : Z.of_N (N_of_ascii a) = Z.of_N (N_of_ascii b) -> a = b.
Proof. intro H. apply N2Z.inj in H. rewrite <- (ascii_N_embedding a), H. apply ascii_N_embedding. Qed.

Lemma codes_inj a : forall b, codes a = codes b -> a = b.
Proof.
  unfold codes. induction a as [|c a IH]; intros [|c' b] H; cbn in H; try discriminate; [reflexivity|].
  injection H as H1 H2. apply Zof_inj in H1. subst c'. f_equal. now apply IH.
Qed.

Lemma type_in n t : type_of n = Some t -> In n user_names.
Proof.
  unfold type_of, user_names. induction itemtable as [|[m x] l IH]; cbn [assoc map fst]; [discriminate|].
  destruct (String.eqb_spec m n); [left; assumption|]. intro H. right. auto.
Qed.

Definition legal_b (n : name) : bool :=
  (0 <? Z.of_nat (length n)) && (Z.of_nat (length n) <=? 8) && forallb (fun c => (0 <? c) && (c <? 128)) n && negb (name_eqb n header).
Lemma legal_b_ok n : legal_b n = true -> legal_name n.
Proof.
  unfold legal_b. intro H. apply andb_prop in H as [H H4]. apply andb_prop in H as [H H3]. apply andb_prop in H as [H1 H2].
  split; [lia|]. split.
  - rewrite forallb_forall in H3. intros c Hc. specialize (H3 c Hc). lia.
  - intros ->. discriminate.
Qed.
Lemma all_legal n : In n all_names -> legal_name (codes n).
Proof.
  intro H. apply legal_b_ok.
  assert (F : forallb (fun n => legal_b (codes n)) all_names = true) by (vm_compute; reflexivity).
  rewrite forallb_forall in F. now apply F.
Qed.

(* names the library writes are not names a user may set, but for the two *)
Lemma own_not_user n : In n user_names -> ~ HdrSpec.own_item n -> ~ In n HdrSpec.own_names.
Proof.
  intros H1 H2 H3. unfold HdrSpec.own_item in H2. unfold HdrSpec.own_names in H3. cbn in H3.
  repeat match goal with
  | H : _ \/ _ |- _ => destruct H as [H|H]
  | H : False |- _ => destruct H
  end; subst; try (apply H2; tauto); cbn in H1; repeat match goal with
  | H : _ \/ _ |- _ => destruct H as [H|H]
  | H : False |- _ => destruct H
  end; discriminate.
Qed.

(* ---------- byte dictionaries ---------- *)
Definition KD (D : dict) : Prop := NoDup (map fst D) /\ incl (map fst D) (map codes all_names).

Lemma remove_keys D k x : In x (map fst (remove D k)) -> In x (map fst D) /\ x <> k.
Proof.
  induction D as [|[k' v] D IH]; cbn [remove map fst]; [tauto|].
  destruct (key_dec k k') as [->|H]; cbn [map fst In]; intro X.
  - apply IH in X. tauto.
  - destruct X as [<-|X]; [split; [left; reflexivity|congruence]|]. apply IH in X. tauto.
Qed.
Lemma remove_nodup D k : NoDup (map fst D) -> NoDup (map fst (remove D k)).
Proof.
  induction D as [|[k' v] D IH]; cbn [remove map fst]; intro H; [constructor|]. inversion H; subst.
  destruct (key_dec k k'); [auto|]. cbn [map fst]. constructor; [|auto]. intro X. apply remove_keys in X. tauto.
Qed.
Lemma KD_insert D n d : KD D -> In n all_names -> KD (insert D (codes n) d).
Proof.
  intros [H1 H2] Hn. unfold insert. split; cbn [map fst].
  - constructor; [|now apply remove_nodup]. intro X. apply remove_keys in X. tauto.
  - intros x [<-|X]; [apply in_map; assumption|]. apply remove_keys in X. apply H2. tauto.
Qed.
Lemma KD_len D : KD D -> (length D < 1000)%nat.
Proof.
  intros [H1 H2]. rewrite <- (map_length fst D). pose proof (NoDup_incl_length H1 H2) as X. etransitivity; [eapply Nat.le_lt_trans; [exact X|]|].
  2: { apply Nat.lt_succ_diag_r. } rewrite map_length. vm_compute. lia.
Qed.

Section V.
Variable narrow widen : Z -> Z.
Hypothesis narrow_range : forall x, 0 <= narrow x < 2 ^ 32.
Variable junk : Z -> Z.
Variable bsz : entry -> Z.
Hypothesis bsz_range : forall e, 0 <= bsz e <= 64.

Lemma access_write_inv s n t : SZ s -> exists A, Inv s false (access_write junk bsz n t) /\ R (access_write junk bsz n t) A /\ a_size A = 0.
Proof.
  intro HS. exists (Arr 0 (fun _ => None)). unfold access_write.
  assert (RN : forall it, i_size it = 0 -> R it (Arr 0 (fun _ => None))).
  { intros it H. split; [exact H|]. intros p b X. discriminate. }
  destruct (nocache n).
  - split; [|split; [apply RN; reflexivity|reflexivity]]. left. unfold file_item, BUFSIZE. constructor; isimp; try reflexivity; try assumption; try (unfold LIM; lia).
    all: try apply Z.divide_0_r; try (left; apply Z.divide_0_r); try (intros _; split; [reflexivity|]; split; [auto|]; intros; lia).
  - destruct (find n (t_items t)) as [e|].
    + split; [|split; [apply RN; reflexivity|reflexivity]]. right. split; [reflexivity|]. specialize (bsz_range e). constructor; isimp; try reflexivity; try lia.
    + split; [|split; [apply RN; reflexivity|reflexivity]]. right. split; [reflexivity|]. unfold new_item. constructor; isimp; try reflexivity; try lia.
Qed.

(* skip: the items that are not kept in V *)
Definition VIx (skip : string -> Prop) (t : tree) (V : HdrSpec.vdict) : Prop :=
  exists D, TI t D /\ KD D /\ (forall n, type_of n = None -> HdrSpec.vlook V n = None) /\
  forall n ty, type_of n = Some ty -> ~ skip n ->
    match HdrSpec.vlook V n with
    | Some v => HdrSpec.val_ok n v /\ exists d, lookup D (codes n) = Some d /\ Rep narrow ty v d
    | None => lookup D (codes n) = None
    end.

Definition VI := VIx HdrSpec.own_item.

Lemma rep_nonempty n ty v d : HdrSpec.val_ok n v -> type_of n = Some ty -> Rep narrow ty v d -> codes n <> history -> d <> [].
Proof.
  intros H T (L & _) NH ->. destruct (layout_chain narrow widen narrow_range junk n ty v H T) as [C _].
  pose proof (chain_count _ _ _ C) as N. change (zlen []) with 0 in L.
  assert (LL : length (layout narrow ty v) = 0%nat) by lia. clear -H T NH LL narrow_range.
  destruct ty; cbn [layout] in LL; try (cbn [length] in LL; discriminate); unfold HdrSpec.val_ok in H; rewrite kind_type, T in H.
  - destruct H as (s & -> & _ & [HN|HN] & _).
    + cbn [elements] in LL. rewrite fields_length, !map_length in LL. destruct s; [congruence|discriminate].
    + apply NH. rewrite HN. reflexivity.
  - destruct H as (e & l & -> & _). discriminate.
Qed.

Lemma uset_ok skip t V n v : VIx skip t V -> HdrSpec.val_ok n v ->
  exists t', uset narrow junk bsz n v t = Ok t' /\ VIx skip t' ((n, v) :: V).
Proof.
  intros (D & HT & HK & HN & HV) HO'. unfold uset.
  destruct (type_of n) as [ty|] eqn:T; [|unfold HdrSpec.val_ok in HO'; rewrite kind_type, T in HO'; contradiction].
  destruct (access_write_inv (unit_of ty) (codes n) t (unit_SZ ty)) as (A & I1 & R1 & A1).
  destruct (wr_main narrow widen narrow_range junk n ty v _ A HO' T I1 R1 A1) as (it' & d & W1 & W2 & W3).
  rewrite W1. cbn [bind]. rewrite W2. eexists. split; [reflexivity|].
  assert (IN : In n all_names) by (apply in_or_app; left; eapply type_in; eassumption).
  exists (insert D (codes n) d). split; [|split; [now apply KD_insert|split]].
  - apply set_spec; [assumption|now apply all_legal| |now apply KD_len]. intro X. eapply rep_nonempty; eassumption.
  - intros m Tm. cbn [HdrSpec.vlook]. destruct (String.eqb_spec n m); [subst; congruence|auto].
  - intros m ty' Tm Om. cbn [HdrSpec.vlook]. rewrite lookup_insert. destruct (String.eqb_spec n m) as [E|E].
    + subst m. rewrite T in Tm. injection Tm as <-. destruct (key_dec (codes n) (codes n)); [|congruence]. split; [assumption|]. exists d. auto.
    + destruct (key_dec (codes m) (codes n)) as [E'|_]; [apply codes_inj in E'; congruence|]. apply HV; assumption.
Qed.

Lemma rep_len n ty v d : HdrSpec.val_ok n v -> type_of n = Some ty -> Rep narrow ty v d -> zlen d <= 2147483632.
Proof.
  intros H T (L & _). destruct (layout_chain narrow widen narrow_range junk n ty v H T) as [C _]. rewrite L. clear -C.
  revert C. assert (0 <= 2147483632) by lia. revert H. generalize 0. induction (layout narrow ty v) as [|[[sz off] bs] r IH]; intros e He C; cbn [lend chain] in *; [assumption|].
  apply IH; [|apply C]. unfold f_off, f_bs; cbn [fst snd]. apply C.
Qed.

Lemma uget_ok skip t V n : VIx skip t V -> ~ skip n ->
  uget widen junk n t = Ok (t, match HdrSpec.vlook V n with Some v => Some (HdrSpec.back narrow widen n v) | None => None end).
Proof.
  intros (D & HT & HK & HN & HV) HO. unfold uget. destruct (type_of n) as [ty|] eqn:T; [|rewrite HN by assumption; reflexivity].
  rewrite (get_spec t D _ HT). specialize (HV n ty T HO). destruct (HdrSpec.vlook V n) as [v|].
  - destruct HV as (VO & d & E & RP). rewrite E.
    destruct (access_read_inv (unit_of ty) junk (codes n) t d (unit_SZ ty)) as (plain & I1 & R1).
    { eapply rep_len; eassumption. }
    { intros e F. pose proof (I_map _ _ HT (codes n)) as M. rewrite F, E in M. injection M as ->.
      pose proof (I_ok _ _ HT) as O. rewrite Forall_forall in O. destruct (find_some_name _ _ _ F) as [Hin _].
      specialize (O e Hin). destruct O as (_ & _ & O & _). exact O. }
    rewrite (rd_main narrow widen narrow_range junk n ty v d _ plain VO T RP I1 R1). reflexivity.
  - rewrite HV. reflexivity.
Qed.

Lemma sys_ok sys : forall t V, VI t V -> Forall (fun p => In (fst p) (map codes HdrSpec.own_names) /\ snd p <> []) sys ->
  VI (fold_left (fun a p => t_set (fst p) (snd p) a) sys t) V.
Proof.
  induction sys as [|[k d] sys IH]; intros t V HV F; [assumption|]. inversion F as [|? ? [F1 F2] F']; subst. cbn [fold_left fst snd] in *.
  apply IH; [|assumption]. destruct HV as (D & HT & HK & HN & HV). apply in_map_iff in F1 as (m & <- & Hm).
  assert (IN : In m all_names) by (apply in_or_app; right; assumption).
  exists (insert D (codes m) d). split; [|split; [now apply KD_insert|split; [assumption|]]].
  - apply set_spec; [assumption|now apply all_legal|intros _; exact F2|now apply KD_len].
  - intros n ty T O. specialize (HV n ty T O). rewrite lookup_insert.
    destruct (key_dec (codes n) (codes m)) as [E|_]; [|exact HV]. apply codes_inj in E. subst m.
    exfalso. eapply own_not_user; eauto. eapply type_in; eassumption.
Qed.

Theorem hdr_history : forall ops t V, VI t V -> Forall (HdrSpec.valid_op) ops ->
  v_run narrow widen junk bsz t ops = HdrSpec.expected_all narrow widen V ops.
Proof.
  induction ops as [|o ops IH]; intros t V HV F; [reflexivity|]. inversion F as [|? ? F1 F2]; subst. cbn [v_run HdrSpec.expected_all].
  destruct o as [n v|n|n|j sys]; cbn [v_step HdrSpec.valid_op HdrSpec.expected HdrSpec.spec_step] in *.
  - destruct F1 as [O1 O2]. destruct (uset_ok _ t V n v HV O2) as (t' & E & HV'). rewrite E. f_equal. now apply IH.
  - rewrite (uget_ok _ t V n HV F1). destruct (HdrSpec.vlook V n); f_equal; now apply IH.
  - destruct HV as (D & HT & HK & HN & HV') eqn:HVE. clear HVE. destruct (type_of n) as [ty|] eqn:T.
    + rewrite (get_spec t D _ HT). pose proof (HV' n ty T F1) as X.
      replace (match lookup D (codes n) with Some _ => true | None => false end) with (match HdrSpec.vlook V n with Some _ => true | None => false end).
      * f_equal. apply IH; [exists D; auto|assumption].
      * destruct (HdrSpec.vlook V n); [destruct X as (_ & d & -> & _)|rewrite X]; reflexivity.
    + rewrite (HN n T). f_equal. apply IH; [exists D; auto|assumption].
  - pose proof (sys_ok sys t V HV F1) as (D & HT & HK & HN & HV').
    destruct (reopen_spec j _ D HT) as (t' & E & HT'). rewrite E. f_equal. apply IH; [exists D; auto|assumption].
Qed.

Lemma VI_new j : VI (t_new j) [].
Proof.
  exists []. split; [|split; [split; [constructor|intros x []]|split; [reflexivity|reflexivity]]].
  apply TI_new.
Qed.
End V.
