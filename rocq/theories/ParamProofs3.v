(* Independence of antennas. *)
From Verif Require Import Base ParamModel ParamSpec ParamProofs ParamProofs2.
From Coq Require Import Ascii String.
Ltac Zify.zify_post_hook ::= idtac.
Open Scope nat_scope.

Section I.
Context {F : Type}.
Implicit Types (h : list (list F)) (d : dict (aval F)).

(* ---- two heaps that agree on an antenna's lists show the same ---- *)
Definition agree h h' (q : pset F) : Prop :=
  pset_below (List.length h) q /\ pset_below (List.length h') q /\
  content h (p_off q) = content h' (p_off q) /\ content h (p_bpr q) = content h' (p_bpr q) /\ content h (p_bpi q) = content h' (p_bpi q).
Definition rel h h' (e e' : string * aval F) : Prop := fst e = fst e' /\ deref h (snd e) = deref h' (snd e').
Lemma agree_app h h' t t' q : agree h h' q -> agree (h ++ t) (h' ++ t') q.
Proof.
  intros ((A1 & A2 & A3) & (B1 & B2 & B3) & C1 & C2 & C3). unfold agree, pset_below. rewrite !app_length.
  repeat split; try lia; rewrite !content_app by auto; auto.
Qed.
Lemma content_at h a b t : content (h ++ a :: b :: t) (List.length h) = a.
Proof. unfold content. rewrite app_nth2, Nat.sub_diag by auto. auto. Qed.
Lemma content_at2 h a b t : content (h ++ a :: b :: t) (S (List.length h)) = b.
Proof. unfold content. rewrite app_nth2 by auto. replace (S (List.length h) - List.length h) with 1 by lia. auto. Qed.
Lemma psets_get_ext l : forall h h', Forall (fun kp => agree h h' (snd kp)) l ->
  Forall2 (rel (fst (psets_get h l)) (fst (psets_get h' l))) (snd (psets_get h l)) (snd (psets_get h' l)).
Proof.
  induction l as [|[p q] l IH]; intros h h' A; [constructor|]. inversion A as [|? ? A0 Al]; subst. cbn [snd] in A0.
  cbn [psets_get]. unfold pset_get.
  set (h1 := h ++ [content h (p_bpr q); content h (p_bpi q)]). set (h1' := h' ++ [content h' (p_bpr q); content h' (p_bpi q)]).
  assert (Al' : Forall (fun kp => agree h1 h1' (snd kp)) l).
  { eapply Forall_impl; [|exact Al]. intros kp. apply agree_app. }
  specialize (IH h1 h1' Al'). destruct (psets_get_heap l h1) as [t Et], (psets_get_heap l h1') as [t' Et'].
  destruct (psets_get h1 l) as [h2 d2], (psets_get h1' l) as [h2' d2']. cbn [fst snd] in *. subst h2 h2'.
  apply Forall2_app; auto. destruct A0 as ((A1 & A2 & A3) & (B1 & B2 & B3) & C1 & C2 & C3). rewrite C1.
  apply Forall2_app.
  - destruct (rev (content h' (p_off q))) as [|o [|y r]]; repeat constructor.
  - constructor; [split; auto; cbn [snd deref]; unfold h1, h1'; rewrite <- !app_assoc, !content_app by auto; congruence|].
    constructor; [split; auto; cbn [snd deref]; unfold h1, h1'; rewrite <- !app_assoc; cbn [app]; rewrite !content_at; congruence|].
    constructor; [split; auto; cbn [snd deref]; unfold h1, h1'; rewrite <- !app_assoc; cbn [app]; rewrite !content_at2; congruence|].
    constructor; [split; auto|constructor].
Qed.
Lemma lookup_rel h h' d d' k : Forall2 (rel h h') d d' -> option_map (deref h) (lookup k d) = option_map (deref h') (lookup k d').
Proof.
  induction 1 as [|[k1 v1] [k2 v2] d d' [E1 E2] H IH]; auto. cbn in E1, E2. subst. cbn [lookup]. destruct (String.eqb k k2); auto.
  cbn. congruence.
Qed.
Lemma reads_ext (w w' : world F) j a k : nth_error (w_ants w) j = Some a -> nth_error (w_ants w') j = Some a ->
  Forall (fun kp => agree (w_heap w) (w_heap w') (snd kp)) (a_pols a) -> reads w j k = reads w' j k.
Proof.
  intros E E' A. unfold reads, ant_get. rewrite E, E'.
  assert (P := psets_get_ext (a_pols a) _ _ A).
  assert (X : existsb (fun kp => List.length (content (w_heap w) (p_off (snd kp))) <? 2) (a_pols a) =
              existsb (fun kp => List.length (content (w_heap w') (p_off (snd kp))) <? 2) (a_pols a)).
  { clear -A. induction A as [|kp l (_ & _ & C & _) H IH]; auto. cbn [existsb]. rewrite IH, C. auto. }
  destruct (psets_get (w_heap w) (a_pols a)) as [h d], (psets_get (w_heap w') (a_pols a)) as [h' d']. cbn [fst snd] in P. rewrite X.
  match goal with |- context [if ?b then _ else _] => destruct b end; auto. cbn [w_heap].
  set (x := [("x", ANum (a_x a)); ("y", ANum (a_y a)); ("z", ANum (a_z a))]%string).
  assert (P' : Forall2 (rel h h') (x ++ d) (x ++ d')) by (apply Forall2_app; auto; repeat constructor).
  assert (Q : option_map (deref h) (lookup k (choose (x ++ d) [] [k])) = option_map (deref h') (lookup k (choose (x ++ d') [] [k]))).
  { destruct (star k) eqn:S.
    - cbn [choose]. rewrite S. apply lookup_rel; auto.
    - rewrite !choose_one by auto. apply lookup_rel; auto. }
  destruct (lookup k (choose (x ++ d) [] [k])) as [[v|v]|], (lookup k (choose (x ++ d') [] [k])) as [[v'|v']|]; cbn in Q |- *; congruence.
Qed.

(* ---- invariant ---- *)
Definition fresh_pset h (q : pset F) : Prop :=
  p_phs q = content h (p_off q) /\ p_gain q = (content h (p_bpr q), content h (p_bpi q), p_amp q).
Definition owned (owner : loc -> option (nat * string)) (i : nat) (kp : string * pset F) : Prop :=
  owner (p_off (snd kp)) = Some (i, fst kp) /\ owner (p_bpr (snd kp)) = None /\ owner (p_bpi (snd kp)) = None.
Definition inv (owner : loc -> option (nat * string)) (w : world F) : Prop :=
  forall i a, nth_error (w_ants w) i = Some a ->
    Forall (fun kp => owned owner i kp /\ pset_below (List.length (w_heap w)) (snd kp) /\ fresh_pset (w_heap w) (snd kp)) (a_pols a).

(* what stays the same for antenna j *)
Definition kept (w w' : world F) (j : nat) : Prop :=
  exists a, nth_error (w_ants w) j = Some a /\ nth_error (w_ants w') j = Some a /\
  Forall (fun kp => agree (w_heap w) (w_heap w') (snd kp)) (a_pols a).
Lemma pset_below_le n m (q : pset F) : n <= m -> pset_below n q -> pset_below m q.
Proof. unfold pset_below. lia. Qed.
Lemma kept_app (w : world F) t x j owner : inv owner w -> j < List.length (w_ants w) -> kept w (World (w_heap w ++ t) (w_ants w ++ x)) j.
Proof.
  intros I L. destruct (nth_error (w_ants w) j) as [a|] eqn:E; [|apply nth_error_None in E; lia].
  exists a. split; auto. cbn [w_ants w_heap]. split; [rewrite nth_error_app1; auto|]. specialize (I j a E).
  eapply Forall_impl; [|exact I]. intros kp (_ & B & _). destruct B as (B1 & B2 & B3). unfold agree, pset_below. rewrite app_length.
  repeat split; try lia; rewrite content_app by auto; auto.
Qed.
Lemma fresh_agree h h' q : agree h h' q -> fresh_pset h q -> fresh_pset h' q.
Proof. intros (_ & _ & C1 & C2 & C3) (F1 & F2). split; congruence. Qed.
Lemma inv_app owner (w : world F) t : inv owner w -> inv owner (World (w_heap w ++ t) (w_ants w)).
Proof.
  intros I i a E. cbn [w_ants w_heap] in *.
  destruct (kept_app w t [] i owner I) as (a' & E1 & E2 & A). { apply nth_error_Some. congruence. }
  cbn [w_heap] in A. rewrite E in E1. injection E1 as <-. specialize (I i a E). rewrite Forall_forall in *.
  intros kp HK. destruct (I kp HK) as (O & B & Fr). split; auto. split.
  - rewrite app_length. eapply pset_below_le; [|exact B]. lia.
  - eapply fresh_agree; eauto.
Qed.
Lemma kept_heap (w : world F) t j owner : inv owner w -> j < List.length (w_ants w) -> kept w (World (w_heap w ++ t) (w_ants w)) j.
Proof. intros I L. assert (K := kept_app w t [] j owner I L). rewrite app_nil_r in K. auto. Qed.
Lemma kept_ants (w : world F) x j owner : inv owner w -> j < List.length (w_ants w) -> kept w (World (w_heap w) (w_ants w ++ x)) j.
Proof. intros I L. assert (K := kept_app w [] x j owner I L). rewrite app_nil_r in K. auto. Qed.

Lemma step_inv owner (w : world F) o w' : inv owner w -> uses_ok owner (List.length (w_ants w)) o ->
  refs_below (List.length (w_heap w)) o -> wstep w o = Ok w' ->
  inv owner w' /\ (forall j, j < List.length (w_ants w) -> ~ on_antenna j o -> kept w w' j).
Proof.
  intros I U B H. destruct o as [l|x y z l|i l|i d|i]; cbn [wstep] in H.
  - injection H as <-. split; [apply inv_app; auto|]. intros j L _. eapply kept_heap; eauto.
  - injection H as <-. split; [|intros j L _; eapply kept_ants; eauto].
    intros i a E. cbn [w_ants w_heap ant_new] in *. destruct (Nat.lt_ge_cases i (List.length (w_ants w))) as [L|L].
    + rewrite nth_error_app1 in E by auto. apply I; auto.
    + rewrite nth_error_app2 in E by auto. destruct (i - List.length (w_ants w)) as [|k] eqn:D; [|destruct k; discriminate E].
      injection E as <-. cbn [a_pols]. assert (i = List.length (w_ants w)) by lia. subst i. cbn [uses_ok refs_below] in U, B.
      apply Forall_forall. intros kp HK. apply in_map_iff in HK as ([p n] & <- & HN). rewrite Forall_forall in U, B.
      specialize (U _ HN). specialize (B _ HN). cbn [fst snd] in *. cbn [new_pset update_pset].
      unfold owned, pset_below, fresh_pset. cbn [fst snd p_off p_bpr p_bpi p_amp p_phs p_gain]. auto.
  - unfold ant_get in H. destruct (nth_error (w_ants w) i); [|discriminate]. 
    destruct (psets_get_heap (a_pols a) (w_heap w)) as [t Et]. destruct (psets_get (w_heap w) (a_pols a)) as [h d]. cbn [fst] in Et. subst h.
    destruct (existsb _ _); [discriminate|]. cbn [bind] in H. injection H as <-. split; [apply inv_app; auto|].
    intros j L _. eapply kept_heap; eauto.
  - apply ant_set_ok in H as (a & E & h' & Lh & N & NC & _ & ->).
    set (ps := map (fun kp => (fst kp, set_fields d (fst kp) (snd kp))) (a_pols a)).
    set (ch := existsb (fun p => existsb (present d) (keys_of p)) (map fst (a_pols a)) || existsb (present d) ["x"; "y"; "z"]%string).
    assert (Ia := I i a E).
    assert (CO : forall m, (forall p, owner m <> Some (i, p)) -> content h' m = content (w_heap w) m).
    { intros m NM. apply N. intros HIn. apply in_map_iff in HIn as (kp & <- & HK). rewrite Forall_forall in Ia.
      destruct (Ia kp HK) as ((O & _) & _). eapply NM; eauto. }
    assert (KO : forall j, j < List.length (w_ants w) -> j <> i -> forall aj, nth_error (w_ants w) j = Some aj ->
                 Forall (fun kp => agree (w_heap w) h' (snd kp)) (a_pols aj)).
    { intros j Lj NJ aj Ej. specialize (I j aj Ej). eapply Forall_impl; [|exact I]. intros kp ((O1 & O2 & O3) & Bk & _).
      split; auto. split; [rewrite Lh; auto|]. repeat split; symmetry; apply CO; intros p; congruence. }
    cbn [w_ants w_heap].
    assert (UN : ch = false -> forall kp, In kp (a_pols a) -> set_fields d (fst kp) (snd kp) = snd kp /\ forall c, edited d (fst kp) c = c).
    { intros CH kp HK. unfold ch in CH. apply orb_false_iff in CH as [CH _].
      assert (Z : existsb (present d) (keys_of (fst kp)) = false).
      { destruct (existsb (present d) (keys_of (fst kp))) eqn:Q; auto. rewrite <- CH. symmetry. apply existsb_exists.
        exists (fst kp). split; auto. apply in_map; auto. }
      assert (NP : forall k, In k (keys_of (fst kp)) -> lookup k d = None).
      { intros k HIn. destruct (lookup k d) eqn:Q; auto. assert (X : existsb (present d) (keys_of (fst kp)) = true).
        { apply existsb_exists. exists k. split; auto. unfold present. rewrite Q. auto. } congruence. }
      unfold set_fields, given, given_num, edited. rewrite !NP by (unfold keys_of; simpl; tauto). split; auto. destruct (snd kp); auto. }
    assert (OW : Forall (fun kp => owned owner i kp /\ pset_below (List.length h') (snd kp)) ps).
    { unfold ps. apply Forall_forall. intros kp HK. apply in_map_iff in HK as ([p q] & <- & HK).
      rewrite Forall_forall in Ia. destruct (Ia _ HK) as ((O1 & O2 & O3) & (B1 & B2 & B3) & _). cbn [fst snd] in *.
      cbn [uses_ok refs_below] in U, B. destruct (U p) as (U1 & U2 & U3).
      unfold owned, pset_below, set_fields, given. cbn [fst snd p_off p_bpr p_bpi]. rewrite Lh.
      destruct (lookup (name "phsoff" p) d) as [[?|l1]|] eqn:E1; destruct (lookup (name "bp_r" p) d) as [[?|l2]|] eqn:E2;
      destruct (lookup (bpi_set_name p) d) as [[?|l3]|] eqn:E3; repeat split; eauto. }
    split.
    + intros j aj Ej. cbn [w_ants w_heap] in *. rewrite nth_upd in Ej. destruct (Nat.eqb_spec i j) as [<-|NJ].
      * rewrite E in Ej. fold ps in Ej. injection Ej as <-. destruct ch eqn:CH.
        -- cbn [update_ant a_pols]. apply Forall_forall. intros kp HK. apply in_map_iff in HK as ([p q] & <- & HK).
           rewrite Forall_forall in OW. destruct (OW _ HK) as (O & Bk). cbn [update_pset snd]. split; [exact O|]. split; [exact Bk|].
           split; reflexivity.
        -- cbn [a_pols]. assert (PS : ps = a_pols a).
           { unfold ps. specialize (UN eq_refl). clear -UN. induction (a_pols a) as [|[p q] l IH]; auto. cbn [map fst snd].
             destruct (UN (p, q) (or_introl eq_refl)) as [X _]. cbn [fst snd] in X. rewrite X, IH; auto. intros kp HK. apply UN. right; auto. }
           rewrite PS in *. rewrite Forall_forall in *. intros kp HK. destruct (OW kp HK) as (O & Bk). split; auto. split; auto.
           destruct (Ia kp HK) as (_ & _ & Fr).
           (* nothing was written *)
           assert (SAME : forall m, content h' m = content (w_heap w) m).
           { apply NC. unfold ch in CH. apply orb_false_iff in CH. apply CH. }
           destruct Fr as [F1 F2]. split; rewrite ?F1, ?F2, !SAME; auto.
      * assert (Lj : j < List.length (w_ants w)) by (apply nth_error_Some; congruence).
        specialize (KO j Lj (not_eq_sym NJ) aj Ej). specialize (I j aj Ej). rewrite Forall_forall in *. intros kp HK.
        destruct (I kp HK) as (O & Bk & Fr). split; auto. split; [rewrite Lh; auto|]. eapply fresh_agree; eauto.
    + intros j Lj NO. cbn [on_antenna] in NO. destruct (nth_error (w_ants w) j) as [aj|] eqn:Ej; [|apply nth_error_None in Ej; lia].
      exists aj. split; auto. cbn [w_ants w_heap]. split; [|apply (KO j); auto].
      rewrite nth_upd. destruct (Nat.eqb_spec i j); [congruence|]. auto.
  - destruct (nth_error (w_ants w) i) as [a|] eqn:E; [|discriminate]. injection H as <-. split.
    + intros j aj Ej. cbn [w_ants w_heap] in *. rewrite nth_upd in Ej. destruct (Nat.eqb_spec i j) as [<-|NJ]; [|apply I; auto].
      rewrite E in Ej. injection Ej as <-. specialize (I i a E). cbn [update_ant a_pols]. apply Forall_forall. intros kp HK.
      apply in_map_iff in HK as ([p q] & <- & HK). rewrite Forall_forall in I. destruct (I _ HK) as (O & Bk & _).
      cbn [update_pset snd]. split; [exact O|]. split; [exact Bk|]. split; reflexivity.
    + intros j Lj NO. cbn [on_antenna] in NO. destruct (nth_error (w_ants w) j) as [aj|] eqn:Ej; [|apply nth_error_None in Ej; lia].
      exists aj. split; auto. cbn [w_ants w_heap]. split; [rewrite nth_upd; destruct (Nat.eqb_spec i j); [congruence|auto]|].
      specialize (I j aj Ej). eapply Forall_impl; [|exact I]. intros kp (_ & Bk & _). repeat split; auto; apply Bk.
Qed.
End I.
