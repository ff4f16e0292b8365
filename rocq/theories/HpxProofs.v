From Coq Require Import Reals Lra Permutation.
From Verif Require Import Base CleanModel CleanSpec CleanProofs GridModel GridSpec GridProofs HpxModel HpxSpec.
Ltac Zify.zify_post_hook ::= idtac.
Open Scope Z_scope.

(* ---------------- lists ---------------- *)
Lemma np_index_ok n i : valid_px n i -> exists k, np_index n i = Ok k /\ Z.of_nat k < n /\ hits n i (Z.of_nat k) = true.
Proof.
  intros V. unfold np_index, valid_px, hits in *. destruct ((0 <=? i) && (i <? n)) eqn:A.
  - exists (Z.to_nat i). split; auto. lia.
  - replace ((- n <=? i) && (i <? 0)) with true by lia. exists (Z.to_nat (i + n)). split; auto. lia.
Qed.
Lemma np_index_pos n i : 0 <= i < n -> np_index n i = Ok (Z.to_nat i).
Proof. intros H. unfold np_index. replace ((0 <=? i) && (i <? n)) with true by lia. reflexivity. Qed.
Lemma np_index_bad n i : ~ valid_px n i -> np_index n i = Err.
Proof.
  intros V. unfold np_index, valid_px in *. replace ((0 <=? i) && (i <? n)) with false by lia.
  replace ((- n <=? i) && (i <? 0)) with false by lia. reflexivity.
Qed.
Lemma hits_uniq n i a b : 0 <= a < n -> 0 <= b < n -> hits n i a = true -> hits n i b = true -> a = b.
Proof. unfold hits. lia. Qed.
Lemma hits_pos n i k : 0 <= k < n -> 0 <= i < n -> hits n i k = (i =? k).
Proof. unfold hits. lia. Qed.
Lemma np_set_length {A} (a : list A) : forall k v, length (np_set a k v) = length a.
Proof. induction a as [|x a IH]; intros [|k] v; cbn; auto. Qed.
Lemma np_set_nth {A} (d : A) (a : list A) : forall k v j, (k < length a)%nat -> nth j (np_set a k v) d = if Nat.eqb j k then v else nth j a d.
Proof.
  induction a as [|x a IH]; intros [|k] v [|j] L; cbn in *; auto; try lia. apply IH. lia.
Qed.
Lemma mapM_map {A B} (f : A -> res B) (g : A -> B) l : (forall x, In x l -> f x = Ok (g x)) -> mapM f l = Ok (map g l).
Proof. induction l as [|x l IH]; cbn; intros H; auto. rewrite H by (left; auto). cbn. rewrite IH; auto. Qed.
Lemma px_ext (a b : list R) : length a = length b -> (forall k, 0 <= k < lenZ a -> px a k = px b k) -> a = b.
Proof.
  intros L H. apply (nth_ext a b 0%R 0%R L). intros n N. specialize (H (Z.of_nat n)). unfold px, lenZ in H.
  rewrite Nat2Z.id in H. apply H. lia.
Qed.
Lemma combine_map_l {A B C} (f : A -> C) (l : list A) : forall (m : list B), combine (map f l) m = map (fun p => (f (fst p), snd p)) (combine l m).
Proof. induction l as [|x l IH]; intros [|y m]; cbn; auto. f_equal. apply IH. Qed.
Lemma combine_map_r {A B C} (f : B -> C) (l : list A) : forall (m : list B), combine l (map f m) = map (fun p => (fst p, f (snd p))) (combine l m).
Proof. induction l as [|x l IH]; intros [|y m]; cbn; auto. f_equal. apply IH. Qed.
Lemma arange_length n : 0 <= n -> lenZ (arange n) = n.
Proof. intros H. unfold lenZ, arange. rewrite map_length, seq_length. lia. Qed.
Lemma arange_in n k : In k (arange n) <-> 0 <= k < n.
Proof.
  unfold arange. rewrite in_map_iff. split.
  - intros (x & <- & I). apply in_seq in I. lia.
  - intros H. exists (Z.to_nat k). split; [lia|]. apply in_seq. lia.
Qed.
Lemma arange_nodup n : NoDup (arange n).
Proof. unfold arange. apply FinFun.Injective_map_NoDup; [|apply seq_NoDup]. intros a b. lia. Qed.
Lemma seq_map_nth {A} (d : A) (l : list A) : map (fun k => nth k l d) (seq 0 (length l)) = l.
Proof.
  apply (nth_ext _ _ d d); [rewrite map_length, seq_length; auto|]. intros n N. rewrite map_length, seq_length in N.
  rewrite (nth_indep _ d (nth 0 l d)) by (rewrite map_length, seq_length; lia). rewrite (map_nth (fun k => nth k l d)).
  rewrite seq_nth by lia. reflexivity.
Qed.
Lemma px_arange (l : list R) : map (px l) (arange (lenZ l)) = l.
Proof.
  unfold arange, lenZ. rewrite Nat2Z.id, map_map. unfold px. rewrite (map_ext _ (fun k => nth k l 0%R)); [apply seq_map_nth|].
  intros a. rewrite Nat2Z.id. reflexivity.
Qed.

(* ---------------- add2array on one axis ---------------- *)
Definition norm (n i : Z) : Z := if i <? 0 then i + n else i.
Lemma locate1 n i : 0 <= n <= 2147483648 -> valid_px n i -> locate [n] [i] = Some [norm n i].
Proof.
  intros N V. apply locate_ok; [repeat constructor; lia | repeat constructor; unfold valid_px in V; lia | reflexivity|].
  unfold valid_px, norm in *. constructor; [destruct (Z.ltb_spec i 0); lia | destruct (Z.ltb_spec i 0); lia | constructor].
Qed.
Lemma locate1_bad n i : 0 <= n <= 2147483648 -> -2147483648 <= i < 2147483648 -> ~ valid_px n i -> locate [n] [i] = None.
Proof.
  intros N I V. destruct (locate [n] [i]) as [c|] eqn:E; auto. exfalso. apply V.
  apply locate_ok in E; [|repeat constructor; lia | repeat constructor; lia | reflexivity].
  inversion E; subst. unfold valid_px. lia.
Qed.
Lemma norm_hits n i k : valid_px n i -> 0 <= k < n -> cell_eqb [norm n i] [k] = hits n i k.
Proof.
  intros V K. unfold valid_px, norm, hits in *. destruct (cell_eqb _ _) eqn:E.
  - apply cell_eqb_spec in E. injection E as E. destruct (Z.ltb_spec i 0); lia.
  - symmetry. apply not_true_is_false. intros H. apply (eq_true_false_abs _ (proj2 (cell_eqb_spec [norm n i] [k]) ltac:(f_equal; unfold norm; destruct (Z.ltb_spec i 0); lia)) E).
Qed.
Section Loop.
Context {T : Type} (add : T -> T -> T).
Lemma loop1 n ps : 0 <= n <= 2147483648 -> Forall (valid_px n) ps -> forall vals a, length ps = length vals ->
  exists b, add2array add [n] a (map (fun p => [p]) ps) vals = Some (true, b) /\
  forall k, 0 <= k < n -> b [k] = fold_left (fun s r => if hits n (fst r) k then add s (snd r) else s) (combine ps vals) (a [k]).
Proof.
  intros N V vals a L. unfold add2array. rewrite map_length, L, Nat.eqb_refl.
  replace (forallb _ _) with true by (symmetry; apply forallb_forall; intros r I; apply in_map_iff in I as (p & <- & _); reflexivity).
  cbn [andb]. revert vals a L. induction V as [|p ps P V IH]; intros [|x vals] a L; try discriminate.
  - exists a. split; auto.
  - cbn [map combine addloop]. rewrite locate1 by auto. injection L as L.
    destruct (IH vals (fun k => if cell_eqb [norm n p] k then add (a k) x else a k) L) as (b & E & H). exists b. split; auto.
    intros k K. rewrite H by auto. rewrite norm_hits by auto. reflexivity.
Qed.
Lemma loop1_bad n ps i : 0 <= n <= 2147483648 -> Forall (fun p => -2147483648 <= p < 2147483648) ps -> In i ps -> ~ valid_px n i ->
  forall vals a, length ps = length vals -> exists b, add2array add [n] a (map (fun p => [p]) ps) vals = Some (false, b).
Proof.
  intros N V I B vals a L. unfold add2array. rewrite map_length, L, Nat.eqb_refl.
  replace (forallb _ _) with true by (symmetry; apply forallb_forall; intros r J; apply in_map_iff in J as (p & <- & _); reflexivity).
  cbn [andb]. revert vals a L. induction V as [|p ps P V IH]; intros [|x vals] a L; try discriminate; [destruct I|].
  cbn [map combine addloop]. destruct (Z_le_dec (- n) p); [destruct (Z_lt_dec p n)|].
  - rewrite locate1 by (auto; split; auto). destruct I as [-> | I]; [exfalso; apply B; split; auto|]. apply IH; auto.
  - rewrite locate1_bad by (auto; unfold valid_px; lia). eauto.
  - rewrite locate1_bad by (auto; unfold valid_px; lia). eauto.
Qed.
End Loop.
Lemma fold_sum n k rows : forall s, fold_left (fun s (r : Z * R) => if hits n (fst r) k then (s + snd r)%R else s) rows s =
  (s + rsum rows (fun '(i, v) => if hits n i k then v else 0))%R.
Proof.
  induction rows as [|[i v] rows IH]; intros s; cbn [fold_left rsum fst snd]; [lra|]. rewrite IH. destruct (hits n i k); lra.
Qed.
Lemma fold_or n k (ps : list Z) (vals : list bool) : length ps = length vals -> Forall (fun b => b = true) vals -> forall s,
  fold_left (fun s (r : Z * bool) => if hits n (fst r) k then s || snd r else s) (combine ps vals) s = s || existsb (fun i => hits n i k) ps.
Proof.
  revert vals. induction ps as [|p ps IH]; intros [|b vals] L F s; try discriminate; cbn [combine fold_left existsb fst snd].
  - rewrite orb_false_r. auto.
  - inversion F; subst. rewrite IH by (cbn in L; auto). destruct (hits n p k); destruct s; cbn; auto.
Qed.
Lemma uncells_px n (f : list Z -> R) k : 0 <= k < Z.of_nat n -> px (uncells n f) k = f [k].
Proof.
  intros K. unfold px, uncells. rewrite (nth_indep _ 0%R (f [Z.of_nat 0])) by (rewrite map_length, seq_length; lia).
  rewrite (map_nth (fun k => f [Z.of_nat k])). rewrite seq_nth by lia. rewrite Nat.add_0_l, Z2Nat.id by lia. reflexivity.
Qed.
Lemma sum_at_single n i v k : sum_at n [i] [v] k = if hits n i k then v else 0%R.
Proof. unfold sum_at. cbn. destruct (hits n i k); lra. Qed.

(* ---------------- assignment ---------------- *)
Section Set_.
Context {Dir : Type} (pixel : Z -> scheme -> Dir -> Z).
Notation pixels := (pixels Dir pixel).
Notation setitem := (setitem Dir pixel).
Lemma set_ok h c vals : lenZ (h_map h) <= 2147483648 -> Forall (valid_px (lenZ (h_map h))) (pixels h c) -> length vals = length (pixels h c) ->
  exists m, setitem h c (Arr vals) = Ok (with_map h m) /\ assigned (pixels h c) vals (h_map h) m.
Proof.
  intros N V L. unfold setitem. set (n := lenZ (h_map h)) in *. set (ps := pixels h c) in *.
  assert (G : forall ind, ind = map (fun p => [p]) ps -> exists m,
    match add2array Rplus [n] (fun _ => 0%R) ind vals with
    | Some (true, m) =>
        match add2array orb [n] (fun _ => false) ind (map (fun _ => true) vals) with
        | Some (true, cnt) => Ok (with_map h (uncells (length (h_map h)) (fun k => if cnt k then m k else cells 0%R (h_map h) k)))
        | _ => Err end
    | _ => Err end = Ok (with_map h m) /\ assigned ps vals (h_map h) m).
  { intros ind ->. assert (N' : 0 <= n <= 2147483648) by (unfold n, lenZ in *; lia).
    destruct (loop1 Rplus n ps N' V vals (fun _ => 0%R) (eq_sym L)) as (b & E & H). rewrite E.
    assert (L' : length ps = length (map (fun _ : R => true) vals)) by (rewrite map_length; auto).
    destruct (loop1 orb n ps N' V (map (fun _ => true) vals) (fun _ => false) L') as (cnt & E2 & H2). rewrite E2.
    eexists. split; [reflexivity|]. split; [unfold uncells; rewrite map_length, seq_length; auto|]. fold n.
    intros k K. rewrite uncells_px by (unfold n, lenZ in K; exact K). rewrite H, H2 by auto.
    rewrite fold_sum. rewrite (fold_or n k ps _ L') by (apply Forall_forall; intros x I; apply in_map_iff in I as (? & <- & _); auto).
    cbn [orb]. split.
    - intros (i & I & Hi). replace (existsb _ ps) with true by (symmetry; apply existsb_exists; eauto). unfold sum_at. lra.
    - intros A. replace (existsb _ ps) with false.
      + unfold cells, px. reflexivity.
      + symmetry. apply not_true_is_false. intros X. apply existsb_exists in X as (i & I & Hi). apply A. exists i. auto. }
  clearbody ps. destruct ps as [|p [|q rest]].
  - apply G. reflexivity.
  - inversion V; subst. destruct vals as [|v [|]]; try discriminate. destruct (np_index_ok n p) as (k & E & KL & KH); auto. rewrite E.
    cbn [bind]. eexists. split; [reflexivity|]. split; [apply np_set_length|]. fold n. intros j J. unfold px.
    rewrite np_set_nth by (unfold n, lenZ in KL; lia). split.
    + intros (i & [<- | []] & Hi). pose proof (hits_uniq n p j (Z.of_nat k) J ltac:(lia) Hi KH) as ->.
      rewrite Nat2Z.id, Nat.eqb_refl, sum_at_single. rewrite KH. reflexivity.
    + intros A. destruct (Nat.eqb_spec (Z.to_nat j) k); auto. exfalso. apply A. exists p. split; [left; auto|].
      replace j with (Z.of_nat k) by lia. auto.
  - apply G. reflexivity.
Qed.
End Set_.
