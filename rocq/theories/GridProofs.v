From Coq Require Import Reals Lra Permutation.
From Verif Require Import Base CleanModel CleanSpec CleanProofs CleanProofs2 GridModel GridSpec.
Ltac Zify.zify_post_hook ::= idtac.
Open Scope Z_scope.

(* ---------------- add2array ---------------- *)
Lemma to_int_small v : -2147483648 <= v < 2147483648 -> to_int v = v.
Proof. intros H. unfold to_int. rewrite Z.mod_small by lia. lia. Qed.
Definition small_shape (shape : list Z) : Prop := Forall (fun d => 0 <= d <= 2147483648) shape.
Definition small_index (index : list Z) : Prop := Forall (fun v => -2147483648 <= v < 2147483648) index.
Lemma locate_ok shape : forall index cell, small_shape shape -> small_index index -> length index = length shape ->
  (locate shape index = Some cell <-> addresses shape index cell).
Proof.
  induction shape as [|d shape IH]; intros [|v index] cell S I L; try discriminate; cbn [locate].
  - split; [intros [= <-]; constructor | intros H; inversion H; auto].
  - inversion S as [|? ? D S']; inversion I as [|? ? V I']; subst. cbn [nth tl]. rewrite (to_int_small v) by lia.
    injection L as L. cbv zeta.
    assert (E : forall w, to_int (v + d) = w -> v < 0 -> w = v + d). { intros w <- N. apply to_int_small. lia. }
    set (v' := if v <? 0 then to_int (v + d) else v). assert (EV : v' = if v <? 0 then v + d else v).
    { unfold v'. destruct (Z.ltb_spec v 0); auto. }
    clearbody v'. clear E. split.
    + destruct ((v' <? 0) || (d <=? v')) eqn:B; [discriminate|]. apply orb_false_iff in B as [B1 B2].
      apply Z.ltb_ge in B1. apply Z.leb_gt in B2. destruct (locate shape index) as [c|] eqn:EL; [|discriminate].
      intros [= <-]. constructor; [lia| |apply IH; auto]. destruct (v <? 0); lia.
    + intros A. inversion A as [|? ? ? ? k c K W A']; subst. apply IH in A'; auto. rewrite A'.
      assert (E : (if v <? 0 then v + d else v) = k). { destruct (Z.ltb_spec v 0), W; lia. }
      rewrite E. replace (k <? 0) with false by lia. replace (d <=? k) with false by lia. reflexivity.
Qed.
Lemma addresses_len shape index cell : addresses shape index cell -> length index = length shape.
Proof. induction 1; cbn; auto. Qed.
Lemma cell_eqb_spec a b : cell_eqb a b = true <-> a = b.
Proof. unfold cell_eqb. destruct (list_eq_dec Z.eq_dec a b); split; congruence. Qed.
Section AddP.
Context {T : Type} (add : T -> T -> T).
Lemma addloop_ok shape rows : small_shape shape -> Forall (fun r => small_index (fst r) /\ length (fst r) = length shape) rows -> forall a,
  Forall (fun r => valid_index shape (fst r)) rows ->
  exists b, addloop add shape a rows = (true, b) /\ forall cell l, addressed shape cell rows l -> b cell = fold_left add l (a cell).
Proof.
  intros S. induction rows as [|[i x] rows IH]; intros R a V.
  - exists a. split; [reflexivity|]. intros cell l H. inversion H. auto.
  - inversion R as [|? ? [SI LI] R']; inversion V as [|? ? [c C] V']; subst. cbn [fst] in *. cbn [addloop].
    pose proof (proj2 (locate_ok shape i c S SI LI) C) as E. rewrite E.
    destruct (IH R' (fun k => if cell_eqb c k then add (a k) x else a k) V') as (b & EB & HB). exists b. split; auto.
    intros cell l H. inversion H as [|? ? ? l' A A'|? ? ? l' A A']; subst.
    + apply (locate_ok shape i cell S SI LI) in A. rewrite E in A. injection A as <-.
      rewrite (HB c l' A'). cbv beta. rewrite (proj2 (cell_eqb_spec c c) eq_refl). reflexivity.
    + rewrite (HB cell l A'). cbv beta. destruct (cell_eqb c cell) eqn:CE; auto. apply cell_eqb_spec in CE. subst. contradiction.
Qed.
Lemma addloop_bad shape good i x rest : small_shape shape -> Forall (fun r => small_index (fst r) /\ length (fst r) = length shape) (good ++ [(i, x)]) ->
  Forall (fun r => valid_index shape (fst r)) good -> ~ valid_index shape i -> forall a,
  addloop add shape a (good ++ (i, x) :: rest) = (false, snd (addloop add shape a good)).
Proof.
  intros S. induction good as [|[j y] good IH]; intros R V B a; cbn [app addloop].
  - inversion R as [|? ? [SI LI] _]; subst. cbn [fst] in *. destruct (locate shape i) as [c|] eqn:E; auto.
    exfalso. apply B. exists c. apply locate_ok; auto.
  - cbn [app] in R. inversion R as [|? ? [SI LI] R']; inversion V as [|? ? [c C] V']; subst. cbn [fst] in *.
    rewrite (proj2 (locate_ok shape j c S SI LI) C). apply IH; auto.
Qed.
End AddP.

(* ---------------- windows ---------------- *)
Open Scope R_scope.
Lemma floorR_spec x : IZR (floorR x) <= x < IZR (floorR x) + 1.
Proof. unfold floorR. destruct (archimed x). rewrite minus_IZR. lra. Qed.
Lemma zrange_in lo hi j : In j (zrange lo hi) <-> (lo <= j <= hi)%Z.
Proof.
  unfold zrange. rewrite in_map_iff. split.
  - intros (k & <- & K). apply in_seq in K. lia.
  - intros H. exists (Z.to_nat (j - lo)). split; [lia|]. apply in_seq. lia.
Qed.
Lemma zrange_nodup lo hi : NoDup (zrange lo hi).
Proof. unfold zrange. apply FinFun.Injective_map_NoDup; [intros a b H; lia | apply seq_NoDup]. Qed.
Lemma taps_window f fp : is_window f (Z.quot fp 2) (taps f fp).
Proof.
  split; [apply zrange_nodup|]. intros j. unfold taps. rewrite zrange_in. unfold ceilR, in_window.
  set (h := Z.quot fp 2). pose proof (floorR_spec (f - IZR h)) as A. pose proof (floorR_spec (- (f + IZR h))) as B.
  set (p := floorR (f - IZR h)) in *. set (q := floorR (- (f + IZR h))) in *. split.
  - intros [L H]. apply IZR_le in L, H. rewrite opp_IZR in H. lra.
  - intros [L H]. split; apply le_IZR; [|rewrite opp_IZR].
    + apply Rnot_lt_le. intros N. assert (IZR j + 1 <= IZR p). { rewrite <- plus_IZR. apply IZR_le. apply lt_IZR in N. lia. } lra.
    + apply Rnot_lt_le. intros N. assert (- IZR q + 1 <= IZR j). { rewrite <- opp_IZR in *. rewrite <- plus_IZR. apply IZR_le. apply lt_IZR in N. lia. } lra.
Qed.
Lemma window_perm f h l m : is_window f h l -> is_window f h m -> Permutation l m.
Proof. intros [A B] [A' B']. apply NoDup_Permutation; auto. intros x. rewrite B, B'. tauto. Qed.
Lemma window_neg f h l : is_window f h l -> is_window (- f) h (map Z.opp l).
Proof.
  intros [A B]. split.
  - apply FinFun.Injective_map_NoDup; auto. intros a b H. lia.
  - intros j. rewrite in_map_iff. unfold in_window in *. split.
    + intros (k & <- & K). apply B in K. rewrite opp_IZR. lra.
    + intros K. exists (- j)%Z. split; [lia|]. apply B. rewrite opp_IZR. lra.
Qed.
Lemma jmod_mod j n : (0 < n)%Z -> jmod j n = (j mod n)%Z.
Proof.
  intros N. unfold jmod. rewrite (Z.rem_mod j n) by lia. rewrite (Z.abs_eq n) by lia.
  pose proof (Z.mod_pos_bound (Z.abs j) n N) as M.
  destruct (Z_lt_le_dec j 0).
  - rewrite (Z.sgn_neg j) by auto. replace (Z.abs j) with (- j)%Z in * by lia.
    destruct (Z.eq_dec ((- j) mod n) 0) as [E|E].
    + rewrite E. cbn. symmetry. apply Z.mod_divide in E; [|lia]. apply Z.mod_divide; [lia|]. destruct E as [k E]. exists (- k)%Z. lia.
    + replace (-1 * ((- j) mod n) <? 0)%Z with true by lia. replace j with (- - j)%Z at 2 by lia. rewrite (Z.mod_opp_l_nz (- j)) by lia. lia.
  - destruct (Z.eq_dec j 0) as [->|]; [reflexivity|]. rewrite (Z.sgn_pos j) by lia. rewrite (Z.abs_eq j) in * by lia.
    replace (1 * (j mod n) <? 0)%Z with false by lia. lia.
Qed.
