(* Selection: clauses against the groups of calls they were built from. *)
From Verif Require Import Base BaselineModel BaselineProofs SelModel SelSpec.
From Coq Require Import QArith Qround Sorted Permutation Lqa.
Open Scope Z_scope.
Ltac Zify.zify_post_hook ::= idtac.

Lemma code_inj a b : code a = code b -> a = b.
Proof. destruct a, b; simpl; intros; try reflexivity; discriminate. Qed.
Lemma kind_eqb_eq a b : kind_eqb a b = true <-> a = b.
Proof.
  unfold kind_eqb. rewrite Z.eqb_eq. split; [apply code_inj | congruence].
Qed.
Lemma kind_eqb_refl a : kind_eqb a a = true.
Proof. apply kind_eqb_eq; reflexivity. Qed.

(* ---- verdict ---- *)
Lemma verdict_snoc l x :
  verdict (l ++ [x]) =
  match l with [] => if snd x then fst x else negb (fst x) | _ => if snd x then fst x else verdict l end.
Proof.
  destruct l as [| [a b] l]; destruct x as [i c].
  - simpl. destruct c; reflexivity.
  - unfold verdict. cbn [app]. rewrite app_comm_cons, fold_left_app. reflexivity.
Qed.

(* ---- sorted operation lists ---- *)
Definition ole (a b : oper) : Prop := code (o_kind a) <= code (o_kind b).
Definition isk (k : kind) (o : oper) : bool := kind_eqb (o_kind o) k.

Lemma add_rev_split op rl : exists a b, rl = a ++ b /\ add_rev op rl = a ++ op :: b /\
  Forall (fun o => code (o_kind op) < code (o_kind o)) a /\
  (match b with [] => True | o :: _ => code (o_kind o) <= code (o_kind op) end).
Proof.
  induction rl as [|o r IH]; simpl.
  - exists [], []. auto.
  - rewrite Z.gtb_ltb. destruct (Z.ltb_spec (code (o_kind op)) (code (o_kind o))).
    + destruct IH as (a & b & E & A & F & B). exists (o :: a), b. subst r. rewrite A. auto.
    + exists [], (o :: r). auto.
Qed.

Lemma sorted_app (l1 l2 : list oper) : StronglySorted ole (l1 ++ l2) ->
  StronglySorted ole l1 /\ StronglySorted ole l2 /\ Forall (fun a => Forall (ole a) l2) l1.
Proof.
  induction l1 as [|x l1 IH]; simpl; intros H.
  - split; [constructor | auto].
  - inversion H as [|? ? S F]; subst. destruct (IH S) as (A & B & C).
    apply Forall_app in F as [F1 F2]. split; [constructor; auto | auto].
Qed.
Lemma app_sorted (l1 l2 : list oper) : StronglySorted ole l1 -> StronglySorted ole l2 ->
  Forall (fun a => Forall (ole a) l2) l1 -> StronglySorted ole (l1 ++ l2).
Proof.
  induction l1 as [|x l1 IH]; simpl; intros A B C; auto.
  inversion A; subst. inversion C; subst. constructor; auto. apply Forall_app; auto.
Qed.

Lemma addoper_split op l : StronglySorted ole l -> exists a b, l = a ++ b /\ addoper op l = a ++ op :: b /\
  Forall (fun o => ole o op) a /\ Forall (fun o => code (o_kind op) < code (o_kind o)) b.
Proof.
  intros S. unfold addoper. destruct (add_rev_split op (rev l)) as (a & b & E & A & F & B).
  exists (rev b), (rev a). rewrite A. rewrite rev_app_distr. simpl. rewrite <- app_assoc. simpl.
  assert (L : l = rev b ++ rev a) by (rewrite <- rev_app_distr, <- E, rev_involutive; reflexivity).
  split; auto. split; auto. split.
  2:{ apply Forall_rev; auto. }
  destruct b as [|o b]; [constructor|].
  simpl. simpl in L. rewrite L in S. apply sorted_app in S as (S & _ & _).
  apply sorted_app in S as (_ & _ & S).
  apply Forall_app. split; [|constructor; auto].
  eapply Forall_impl; [|exact S]. intros x Hx. inversion Hx; subst. unfold ole in *. lia.
Qed.

Lemma addoper_sorted op l : StronglySorted ole l -> StronglySorted ole (addoper op l).
Proof.
  intros S. destruct (addoper_split op l S) as (a & b & E & A & F & B). rewrite A. subst l.
  apply sorted_app in S as (S1 & S2 & S3).
  apply app_sorted; auto.
  - constructor; auto. eapply Forall_impl; [|exact B]. unfold ole. intros; lia.
  - apply Forall_forall. intros x Hx. rewrite Forall_forall in F, S3. constructor; auto.
Qed.

Lemma addoper_filter op l k : StronglySorted ole l ->
  filter (isk k) (addoper op l) = filter (isk k) l ++ (if isk k op then [op] else []).
Proof.
  intros S. destruct (addoper_split op l S) as (a & b & E & A & F & B). rewrite A. subst l.
  rewrite !filter_app. simpl. destruct (isk k op) eqn:K.
  - rewrite <- app_assoc. f_equal.
    assert (Hb : filter (isk k) b = []).
    { apply kind_eqb_eq in K. subst k. clear -B. induction b as [|o b IH]; auto.
      inversion B; subst. simpl. unfold isk at 1. unfold kind_eqb.
      destruct (Z.eqb_spec (code (o_kind o)) (code (o_kind op))); [lia | auto]. }
    rewrite Hb. reflexivity.
  - rewrite app_nil_r. reflexivity.
Qed.

(* ---- one kind ---- *)
Definition gstep (n : Z) (v : vis) (d : bool) (o : oper) : bool := if hit n v o then o_discard o else d.
Definition gdisc (n : Z) (v : vis) (l : list oper) : bool :=
  match l with [] => false | o :: _ => fold_left (gstep n v) l (negb (o_discard o)) end.

Lemma group_app k n v l1 : forall d l2, Forall (fun o => o_kind o = k) l1 ->
  match l2 with [] => True | o :: _ => o_kind o <> k end ->
  group k n v d (l1 ++ l2) = (fold_left (gstep n v) l1 d, l2).
Proof.
  induction l1 as [|o l1 IH]; intros d l2 F H.
  - simpl. destruct l2 as [|o l2]; auto. simpl. destruct (kind_eqb (o_kind o) k) eqn:E; auto.
    apply kind_eqb_eq in E. contradiction.
  - inversion F as [|? ? Ek F']; subst. simpl. rewrite kind_eqb_refl.
    rewrite (IH _ l2 F' H). reflexivity.
Qed.

Definition arranged (order : list kind) (ops : list oper) : Prop :=
  ops = flat_map (fun k => filter (isk k) ops) order.

Lemma filter_isk_all k l : Forall (fun o => o_kind o = k) (filter (isk k) l).
Proof. apply Forall_forall. intros x Hx. apply filter_In in Hx as [_ Hx]. apply kind_eqb_eq; auto. Qed.

Lemma filter_none k l : Forall (fun o => o_kind o <> k) l -> filter (isk k) l = [].
Proof.
  induction 1; simpl; auto. unfold isk at 1.
  destruct (kind_eqb (o_kind x) k) eqn:E; auto. apply kind_eqb_eq in E. contradiction.
Qed.

Lemma flat_in (g : kind -> list oper) order o :
  (forall k, Forall (fun o => o_kind o = k) (g k)) -> In o (flat_map g order) -> In (o_kind o) order.
Proof.
  intros G H. apply in_flat_map in H as (k & Hk & Ho). specialize (G k).
  rewrite Forall_forall in G. rewrite (G o Ho). exact Hk.
Qed.

Lemma groups_gen (g : kind -> list oper) n v : (forall k, Forall (fun o => o_kind o = k) (g k)) ->
  forall order, NoDup order ->
  groups order n v (flat_map g order) = existsb (fun k => gdisc n v (g k)) order.
Proof.
  intros G order. induction order as [|k order IH]; intros ND; auto.
  inversion ND as [|? ? NI ND']; subst. cbn [flat_map existsb].
  destruct (g k) as [|o l] eqn:E.
  - cbn [app]. cbn [groups]. destruct (flat_map g order) as [|o l] eqn:F.
    + cbn [gdisc orb]. rewrite <- (IH ND'). destruct order; reflexivity.
    + assert (K : kind_eqb (o_kind o) k = false).
      { destruct (kind_eqb (o_kind o) k) eqn:K; auto. exfalso. apply kind_eqb_eq in K. apply NI.
        rewrite <- K. apply (flat_in g); auto. rewrite F. left; auto. }
      rewrite K. cbn [gdisc orb]. apply IH; auto.
  - assert (Go := G k). rewrite E in Go. assert (Ko : o_kind o = k) by (inversion Go; auto).
    cbn [app]. cbn [groups]. rewrite Ko, kind_eqb_refl.
    change (o :: l ++ flat_map g order) with ((o :: l) ++ flat_map g order).
    rewrite (group_app k n v (o :: l)); auto.
    + unfold gdisc at 1. destruct (fold_left (gstep n v) (o :: l) (negb (o_discard o))) eqn:D; simpl.
      * reflexivity.
      * apply IH; auto.
    + destruct (flat_map g order) as [|o' l'] eqn:F; auto. intros K. apply NI. rewrite <- K.
      apply (flat_in g); auto. rewrite F. left; auto.
Qed.

Lemma arranged_groups order ops n v : NoDup order -> arranged order ops ->
  groups order n v ops = existsb (fun k => gdisc n v (filter (isk k) ops)) order.
Proof.
  intros ND A. unfold arranged in A. rewrite A at 1.
  apply (groups_gen (fun k => filter (isk k) ops)); auto. intros. apply filter_isk_all.
Qed.

(* sorted by number -> arranged in the numeric order *)
Lemma sorted_head_split k l : StronglySorted ole l -> Forall (fun o => code k <= code (o_kind o)) l ->
  exists l', l = filter (isk k) l ++ l' /\ Forall (fun o => code k < code (o_kind o)) l' /\ StronglySorted ole l'.
Proof.
  induction l as [|o l IH]; intros S F.
  - exists []. simpl. auto.
  - inversion S as [|? ? S' Fo]; subst. inversion F as [|? ? Hk F']; subst.
    simpl. unfold isk at 1. unfold kind_eqb. destruct (Z.eqb_spec (code (o_kind o)) (code k)) as [E|E].
    + destruct (IH S' F') as (l' & EQ & A & B). exists l'. cbn [app]. rewrite <- EQ. auto.
    + assert (A : Forall (fun x => code k < code (o_kind x)) (o :: l)).
      { constructor; [lia|]. eapply Forall_impl; [|exact Fo]. unfold ole. intros; lia. }
      exists (o :: l). rewrite (filter_none k l). 2:{ inversion A; subst. eapply Forall_impl; [|eassumption]. simpl. intros a Ha Hn. subst k. lia. }
      split; auto.
Qed.

Lemma sorted_numeric order : StronglySorted (fun a b => code a < code b) order ->
  forall l, StronglySorted ole l -> Forall (fun o => In (o_kind o) order) l -> arranged order l.
Proof.
  unfold arranged. induction 1 as [|k order S IH F]; intros l Sl Fl.
  - destruct l as [|o l]; auto. inversion Fl as [|? ? Hx ?]; subst. destruct Hx.
  - destruct (sorted_head_split k l Sl) as (l' & E & A & S').
    { eapply Forall_impl; [|exact Fl]. intros o [Ho|Ho]; [subst; lia|]. rewrite Forall_forall in F. specialize (F _ Ho). lia. }
    cbn [flat_map].
    assert (Hl' : l' = flat_map (fun k0 => filter (isk k0) l') order).
    { apply IH; auto. apply Forall_forall. intros o Ho. rewrite Forall_forall in Fl, A.
      assert (In o l) by (rewrite E; apply in_or_app; auto).
      specialize (A _ Ho). destruct (Fl _ H) as [K|K]; auto. rewrite K in A. lia. }
    rewrite E at 1. f_equal. rewrite Hl' at 1.
    rewrite flat_map_concat_map. rewrite flat_map_concat_map. f_equal. apply map_ext_in. intros k0 Hk0.
    rewrite E. rewrite filter_app.
    assert (Z0 : filter (isk k0) (filter (isk k) l) = []).
    { apply filter_none. eapply Forall_impl; [|apply filter_isk_all]. intros o Ho. simpl in *. rewrite Forall_forall in F.
      specialize (F _ Hk0). intro HH. rewrite Ho in HH. subst k0. lia. }
    rewrite Z0. reflexivity.
Qed.

Lemma all_kinds_in k : In k all_kinds.
Proof. destruct k; simpl; tauto. Qed.
Lemma all_kinds_sorted : StronglySorted (fun a b => code a < code b) all_kinds.
Proof. repeat constructor. Qed.

Definition opers_have (f : kind -> bool) (l : list oper) : bool := existsb (fun o => f (o_kind o)) l.
Lemma not_have f l k : opers_have f l = false -> f k = true -> filter (isk k) l = [].
Proof.
  intros H K. apply filter_none. apply Forall_forall. intros o Ho E. subst k.
  assert (existsb (fun o => f (o_kind o)) l = true) by (apply existsb_exists; eauto).
  unfold opers_have in H. congruence.
Qed.

Lemma arranged_test l : StronglySorted ole l ->
  opers_have late l = false \/ opers_have middle l = false -> arranged test_order l.
Proof.
  intros S H. assert (A : arranged all_kinds l).
  { apply sorted_numeric; auto using all_kinds_sorted. apply Forall_forall. intros. apply all_kinds_in. }
  unfold arranged in *. rewrite A at 1. cbn [flat_map all_kinds test_order].
  destruct H as [H|H].
  - rewrite (not_have _ _ KDazim H eq_refl), (not_have _ _ KDelev H eq_refl). reflexivity.
  - rewrite (not_have _ _ KDra H eq_refl), (not_have _ _ KDdec H eq_refl), (not_have _ _ KInc H eq_refl),
      (not_have _ _ KRa H eq_refl), (not_have _ _ KDec H eq_refl), (not_have _ _ KPol H eq_refl),
      (not_have _ _ KOn H eq_refl), (not_have _ _ KUv H eq_refl), (not_have _ _ KFreq H eq_refl),
      (not_have _ _ KShadow H eq_refl), (not_have _ _ KBin H eq_refl), (not_have _ _ KHa H eq_refl),
      (not_have _ _ KLst H eq_refl), (not_have _ _ KElev H eq_refl).
    cbn [app]. rewrite ?app_nil_r. reflexivity.
Qed.

Lemma test_order_nodup : NoDup test_order.
Proof. repeat constructor; simpl; intuition discriminate. Qed.

Lemma groups_all l n v : StronglySorted ole l ->
  opers_have late l = false \/ opers_have middle l = false ->
  groups test_order n v l = existsb (fun k => gdisc n v (filter (isk k) l)) all_kinds.
Proof.
  intros S H. rewrite (arranged_groups _ _ _ _ test_order_nodup (arranged_test l S H)).
  cbn [existsb test_order all_kinds]. destruct (gdisc n v (filter (isk KDazim) l)), (gdisc n v (filter (isk KDelev) l));
  repeat (rewrite ?orb_true_r, ?orb_false_r; simpl); try reflexivity.
Qed.

(* ---- hit against covers ---- *)
Lemma qtrunc_floor q : (0 <= q)%Q -> qtrunc q = Qfloor q.
Proof.
  intros H. destruct q as [a b]. unfold qtrunc, Qfloor. simpl. apply Z.quot_div_nonneg; [|lia].
  unfold Qle in H. simpl in H. lia.
Qed.

Lemma Qle_bool_comp a a' b b' : (a == a')%Q -> (b == b')%Q -> Qle_bool a b = Qle_bool a' b'.
Proof.
  intros A B. destruct (Qle_bool a b) eqn:E.
  - apply Qle_bool_iff in E. symmetry. apply Qle_bool_iff. rewrite <- A, <- B. exact E.
  - destruct (Qle_bool a' b') eqn:E'; auto. apply Qle_bool_iff in E'. rewrite <- A, <- B in E'.
    apply Qle_bool_iff in E'. congruence.
Qed.
Lemma qlt_false a b : qlt a b = false -> (b <= a)%Q.
Proof. unfold qlt. rewrite negb_false_iff. apply Qle_bool_iff. Qed.

Lemma hit_covers n v k p1 p2 d lo hi : rec_ok v -> 1 <= n -> range_params k p1 p2 = Ok (lo, hi) ->
  hit n v (Op k d lo hi) = covers n v k p1 p2.
Proof.
  intros (_ & _ & T) N H. unfold hit, covers. cbn [o_kind o_lo o_hi].
  destruct k; cbn [range_params] in H;
    try (destruct (Qle_bool p2 p1) eqn:E; cbn [orb] in H; [discriminate|]);
    try (injection H as <- <-; reflexivity).
  - destruct (qlt p2 p1 || qlt p1 1) eqn:E; [discriminate|]. injection H as <- <-. reflexivity.
  - injection H as <- <-. unfold inr, in_range, day_fraction. f_equal.
    rewrite (qtrunc_floor (v_time v - (1 # 2))) by lra.
    f_equal; apply Qle_bool_comp; try reflexivity; lra.
  - destruct (qlt p1 0); [discriminate|]. injection H as <- <-. reflexivity.
  - destruct (qlt p1 0); [discriminate|]. injection H as <- <-. reflexivity.
  - destruct (qlt p1 1) eqn:E; [discriminate|]. injection H as <- <-. apply qlt_false in E.
    rewrite qtrunc_floor by lra.
    assert (F : 0 < Qfloor (p1 + (1 # 2))).
    { assert (A : Qfloor (inject_Z 1) <= Qfloor (p1 + (1 # 2))). { apply Qfloor_resp_le. change (inject_Z 1) with 1%Q. lra. }
      rewrite Qfloor_Z in A. lia. }
    rewrite Z.rem_mod_nonneg by lia. reflexivity.
  - destruct (qlt p1 0); [discriminate|]. injection H as <- <-. reflexivity.
  - destruct (Qle_bool p1 0); [discriminate|]. injection H as <- <-. reflexivity.
  - destruct (negb (Qeq_bool p1 0) || qlt p2 0); [discriminate|]. injection H as <- <-. reflexivity.
  - destruct (qlt p1 1) eqn:E; cbn [orb] in H; [discriminate|].
    destruct (qlt p2 p1) eqn:E2; [discriminate|]. injection H as <- <-.
    apply qlt_false in E. apply qlt_false in E2.
    rewrite (qtrunc_floor (p1 + (1 # 2))) by lra. rewrite (qtrunc_floor (p2 + (1 # 2))) by lra. reflexivity.
  - injection H as <- <-. unfold qlt. destruct (Qle_bool p2 p1); reflexivity.
Qed.
