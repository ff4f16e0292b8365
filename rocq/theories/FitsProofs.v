From Coq Require Import Ascii String.
From Verif Require Import Base ScriptModel ImgModel FitsModel FitsSpec.
Local Open Scope Z_scope.
Local Notation length := List.length.

(* ---- strings ---- *)
Lemma small_lower c : small c = lower1 c.
Proof. destruct c as [[] [] [] [] [] [] [] []]; vm_compute; reflexivity. Qed.
Lemma lower_upper1 c : lower1 (upper1 c) = lower1 c.
Proof. destruct c as [[] [] [] [] [] [] [] []]; vm_compute; reflexivity. Qed.
Lemma lower_lower1 c : lower1 (lower1 c) = lower1 c.
Proof. destruct c as [[] [] [] [] [] [] [] []]; vm_compute; reflexivity. Qed.
Lemma blank_lower1 c : ceqb (lower1 c) " " = ceqb c " ".
Proof. destruct c as [[] [] [] [] [] [] [] []]; vm_compute; reflexivity. Qed.
Lemma printable_upper1 c : printable (upper1 c) = printable c.
Proof. destruct c as [[] [] [] [] [] [] [] []]; vm_compute; reflexivity. Qed.
Lemma printable_lower1 c : printable (lower1 c) = printable c.
Proof. destruct c as [[] [] [] [] [] [] [] []]; vm_compute; reflexivity. Qed.
Lemma map_small s : map small s = lower s.
Proof. apply map_ext, small_lower. Qed.
Lemma lower_upper s : lower (upper s) = lower s.
Proof. unfold lower, upper. rewrite map_map. apply map_ext, lower_upper1. Qed.
Lemma lower_lower s : lower (lower s) = lower s.
Proof. unfold lower. rewrite map_map. apply map_ext, lower_lower1. Qed.
Lemma cut_map (f : ascii -> ascii) s : (forall c, ceqb (f c) " " = ceqb c " ") -> cut_blanks (map f s) = map f (cut_blanks s).
Proof. intros H. induction s as [|c r IH]; [reflexivity|]. cbn. rewrite H. destruct (ceqb c " "); [exact IH|reflexivity]. Qed.
Lemma rtrim_lower s : rtrim (lower s) = lower (rtrim s).
Proof. unfold rtrim, lower. rewrite <- map_rev, cut_map, map_rev by apply blank_lower1. reflexivity. Qed.
Lemma cut_spec s : exists n, s = repeat " "%char n ++ cut_blanks s /\ forall r, cut_blanks s <> " "%char :: r.
Proof.
  induction s as [|c s [n [E H]]]; [exists O; split; [reflexivity|discriminate]|]. cbn.
  unfold ceqb. destruct (Ascii.eqb_spec c " ") as [->|N].
  - exists (S n). cbn. rewrite <- E. auto.
  - exists O. split; [reflexivity|]. intros r [= K _]. contradiction.
Qed.
Lemma rtrim_trimmed s : rtrimmed s (rtrim s).
Proof.
  unfold rtrimmed, rtrim. destruct (cut_spec (rev s)) as [n [E H]]. split.
  - exists n. rewrite <- (rev_involutive s) at 1. rewrite E at 1. rewrite rev_app_distr. f_equal.
    clear. induction n as [|n IH]; [reflexivity|]. cbn. rewrite IH. clear. induction n; cbn; congruence.
  - intros u K. apply (H (rev u)). rewrite <- (rev_involutive (cut_blanks (rev s))), K, rev_app_distr. reflexivity.
Qed.
Lemma rtrim_blanks s n : rtrim (s ++ repeat " "%char n) = rtrim s.
Proof.
  unfold rtrim. rewrite rev_app_distr. f_equal.
  assert (R : rev (repeat " "%char n) = repeat " "%char n).
  { clear. induction n as [|n IH]; [reflexivity|]. cbn. rewrite IH. clear. induction n; cbn; congruence. }
  rewrite R. clear R. induction n as [|n IH]; [reflexivity|]. exact IH.
Qed.
Lemma rtrim_id t : (forall u, t <> u ++ [" "%char]) -> rtrim t = t.
Proof.
  intros H. unfold rtrim. destruct (rev t) as [|c r] eqn:E; [rewrite <- (rev_involutive t), E; reflexivity|].
  cbn. unfold ceqb. destruct (Ascii.eqb_spec c " ") as [->|N].
  - exfalso. apply (H (rev r)). rewrite <- (rev_involutive t), E. reflexivity.
  - change (rev r ++ [c]) with (rev (c :: r)). rewrite <- E. apply rev_involutive.
Qed.
Lemma trimmed_rtrim s t : rtrimmed s t <-> t = rtrim s.
Proof.
  split; [|intros ->; apply rtrim_trimmed]. intros [[n ->] H]. rewrite rtrim_blanks, rtrim_id; auto.
Qed.
Lemma rtrim_rtrim s : rtrim (rtrim s) = rtrim s.
Proof. apply rtrim_id. apply (proj2 (rtrim_trimmed s)). Qed.
Lemma starts_app p s : starts p s = true <-> exists r, s = p ++ r.
Proof.
  revert s. induction p as [|a p IH]; intros s; cbn; [split; [intros _; exists s; reflexivity|reflexivity]|].
  destruct s as [|b s]; [split; [discriminate|intros [r K]; discriminate]|].
  unfold ceqb. destruct (Ascii.eqb_spec a b) as [->|N]; cbn.
  - rewrite IH. split; intros [r E]; exists r; [rewrite E; reflexivity|now injection E].
  - split; [discriminate|]. intros [r [= E _]]. congruence.
Qed.
Lemma begins_axis p ax : begins p (lower ax) = true <-> axis_is p ax.
Proof. unfold begins, axis_is, lit. rewrite starts_app, map_small. reflexivity. Qed.
Lemma begins_axis_false p ax : begins p (lower ax) = false <-> ~ axis_is p ax.
Proof. rewrite <- begins_axis. destruct (begins p (lower ax)); split; congruence. Qed.
Lemma forallb_text s : forallb printable s = true <-> ascii_text s.
Proof.
  unfold ascii_text. rewrite forallb_forall, Forall_forall. unfold printable, cval. split; intros H c K; specialize (H c K); lia.
Qed.
Lemma forallb_map_p (f : ascii -> ascii) s : (forall c, printable (f c) = printable c) -> forallb printable (map f s) = forallb printable s.
Proof. intros H. induction s as [|c r IH]; [reflexivity|]. cbn. rewrite H, IH. reflexivity. Qed.
Lemma forallb_rtrim s : forallb printable (rtrim s) = forallb printable s.
Proof.
  destruct (proj1 (rtrim_trimmed s)) as [n E]. rewrite E at 2. rewrite forallb_app.
  assert (R : forallb printable (repeat " "%char n) = true) by (clear; induction n; auto).
  rewrite R. destruct (forallb printable (rtrim s)); reflexivity.
Qed.
(* a word without blanks at the beginning stays when trailing blanks go *)
Lemma starts_rtrim p s : (forall u, p <> u ++ [" "%char]) -> p <> [] -> starts p (rtrim s) = starts p s.
Proof.
  intros Hp Hn. apply eq_true_iff_eq. rewrite !starts_app. destruct (proj1 (rtrim_trimmed s)) as [n E]. split.
  - intros [r K]. exists (r ++ repeat " "%char n). rewrite E, K, app_assoc. reflexivity.
  - intros [r ->]. clear E n. revert Hp. induction r as [|c r IH] using rev_ind; intros Hp.
    + rewrite app_nil_r, rtrim_id by exact Hp. exists []. symmetry. apply app_nil_r.
    + destruct (Ascii.eqb_spec c " ") as [->|N].
      * rewrite app_assoc. change [" "%char] with (repeat " "%char 1). rewrite rtrim_blanks. apply IH, Hp.
      * rewrite rtrim_id; [exists (r ++ [c]); reflexivity|]. intros u K. rewrite app_assoc in K. apply app_inj_tail in K. destruct K as [_ K]. congruence.
Qed.
Lemma streq_spec a b : streq a b = true <-> a = b.
Proof.
  revert b. induction a as [|x a IH]; intros [|y b]; cbn; try (split; [discriminate|discriminate]); [split; reflexivity|].
  unfold ceqb. destruct (Ascii.eqb_spec x y) as [->|N]; cbn; [rewrite IH; split; congruence|split; congruence].
Qed.
Lemma streq_refl a : streq a a = true.
Proof. apply streq_spec. reflexivity. Qed.
Lemma keqb_spec a b : keqb a b = true <-> a = b.
Proof.
  destruct a as [x|x i], b as [y|y j]; cbn; try (split; discriminate).
  - destruct (String.eqb_spec x y) as [->|N]; split; congruence.
  - destruct (String.eqb_spec x y) as [->|N]; cbn; [|split; congruence]. rewrite Nat.eqb_eq. split; congruence.
Qed.
Lemma keqb_refl a : keqb a a = true.
Proof. apply keqb_spec. reflexivity. Qed.

Section P.
Variable V : Type.
Variable finite : V -> bool.
Variable reread : V -> V.
Notation hget := (hget V). Notation hset := (hset V). Notation sets := (sets V finite).
Notation store := (store V reread). Notation legal := (legal V finite).

(* ---- headers ---- *)
Definition lastv (l : list (key * val V)) (k : key) : option (val V) :=
  fold_left (fun acc '(q, v) => if keqb q k then Some v else acc) l None.
Lemma lastv_acc l k o : fold_left (fun acc '(q, v) => if keqb q k then Some v else acc) l o = match lastv l k with Some v => Some v | None => o end.
Proof.
  unfold lastv. revert o. induction l as [|[q v] r IH]; intros o; [reflexivity|]. cbn. destruct (keqb q k).
  - rewrite (IH (Some v)). destruct (fold_left _ r None); reflexivity.
  - apply IH.
Qed.
Lemma lastv_app l m k : lastv (l ++ m) k = match lastv m k with Some v => Some v | None => lastv l k end.
Proof. unfold lastv at 1. rewrite fold_left_app. apply lastv_acc. Qed.
Lemma lastv_cons q v r k : lastv ((q, v) :: r) k = match lastv r k with Some w => Some w | None => if keqb q k then Some v else None end.
Proof. unfold lastv at 1. cbn. apply lastv_acc. Qed.
Lemma hset_get h k v q : hget (hset h k v) q = if keqb k q then Some v else hget h q.
Proof.
  induction h as [|[p w] r IH]; cbn; [reflexivity|]. destruct (keqb p k) eqn:E; cbn.
  - apply keqb_spec in E. subst p. destruct (keqb k q); reflexivity.
  - rewrite IH. destruct (keqb p q) eqn:E2, (keqb k q) eqn:E3; try reflexivity.
    apply keqb_spec in E2, E3. subst. rewrite keqb_refl in E. discriminate.
Qed.
Lemma sets_get l : forall h h', sets h l = Ok h' -> forall k, hget h' k = match lastv l k with Some v => Some v | None => hget h k end.
Proof.
  induction l as [|[q v] r IH]; intros h h' H k; [injection H as <-; reflexivity|].
  cbn in H. destruct (legal v) eqn:L; [|discriminate]. rewrite (IH _ _ H k), lastv_cons, hset_get.
  destruct (lastv r k); [reflexivity|]. destruct (keqb q k); reflexivity.
Qed.
Lemma sets_ok l h : is_ok (sets h l) = forallb (fun p => legal (snd p)) l.
Proof.
  revert h. induction l as [|[q v] r IH]; intros h; [reflexivity|]. cbn. destruct (legal v); [apply IH|reflexivity].
Qed.
Lemma hget_filter (p : key -> bool) h k : hget (filter (fun '(q, _) => p q) h) k = if p k then hget h k else None.
Proof.
  induction h as [|[q v] r IH]; cbn; [destruct (p k); reflexivity|]. destruct (p q) eqn:E; cbn.
  - rewrite IH. destruct (keqb q k) eqn:K; [apply keqb_spec in K; subst q; rewrite E; reflexivity|reflexivity].
  - rewrite IH. destruct (keqb q k) eqn:K; [apply keqb_spec in K; subst q; rewrite E; reflexivity|reflexivity].
Qed.
Lemma hget_store h k : hget (map (fun '(q, v) => (q, store v)) h) k = option_map store (hget h k).
Proof. induction h as [|[q v] r IH]; cbn; [reflexivity|]. destruct (keqb q k); [reflexivity|exact IH]. Qed.

End P.
Section A.
Variable V : Type.
Variables (zero one : V) (of_nat : nat -> V) (opp : V -> V) (pos : V -> bool).
Notation axis_cards := (axis_cards V zero one of_nat opp pos).
Notation lastv := (lastv V).
(* the cards of the axes *)
Lemma axes_K a sh axes j n : lastv (flat_map (fun '(i, ax) => axis_cards a sh i ax) (number j axes)) (K n) = None.
Proof.
  revert j. induction axes as [|ax r IH]; intros j; [reflexivity|]. cbn [number flat_map]. rewrite lastv_app, IH.
  unfold axis_cards, FitsModel.axis_cards. match goal with |- context [let '(_, _) := ?x in _] => destruct x as [v d] end. reflexivity.
Qed.
Lemma axis_KI a sh i ax n m : m <> (i + 1)%nat -> lastv (axis_cards a sh i ax) (KI n m) = None.
Proof.
  intros H. unfold axis_cards, FitsModel.axis_cards. match goal with |- context [let '(_, _) := ?x in _] => destruct x as [v d] end.
  assert (E : Nat.eqb (i + 1) m = false) by (apply Nat.eqb_neq; lia).
  unfold lastv. cbn [fold_left keqb]. rewrite !E, !andb_false_r. reflexivity.
Qed.
Lemma axes_KI a sh axes n : forall j m, (m <= j)%nat -> lastv (flat_map (fun '(i, ax) => axis_cards a sh i ax) (number j axes)) (KI n m) = None.
Proof.
  induction axes as [|ax r IH]; intros j m H; [reflexivity|]. cbn [number flat_map]. rewrite lastv_app, IH by lia. apply axis_KI. lia.
Qed.
Lemma axes_nth a sh axes n : forall j i ax, nth_error axes i = Some ax ->
  lastv (flat_map (fun '(i, ax) => axis_cards a sh i ax) (number j axes)) (KI n (j + i + 1)) = lastv (axis_cards a sh (j + i) ax) (KI n (j + i + 1)).
Proof.
  induction axes as [|x r IH]; intros j i ax H; [destruct i; discriminate|]. cbn [number flat_map]. rewrite lastv_app.
  destruct i as [|i]; cbn in H.
  - injection H as ->. rewrite Nat.add_0_r, axes_KI by lia. reflexivity.
  - specialize (IH (S j) i ax H). replace (j + S i)%nat with (S j + i)%nat by lia. rewrite IH.
    rewrite (axis_KI a sh j x) by lia. clear. destruct (lastv (axis_cards a sh (S j + i) ax) _); reflexivity.
Qed.
(* value and step of an axis *)
Definition axis_vd (a : args V) (ax : str) : V * V :=
  let l := lower ax in
  let '(v, d) :=
    if begins "ra" l || begins "glon" l then (a_ra V a, a_d_ra V a)
    else if begins "dec" l || begins "glat" l then (a_dec V a, a_d_dec V a)
    else if begins "freq" l then (a_freq V a, a_d_freq V a)
    else if begins "stokes" l then (one, one) else (zero, zero) in
  (v, if (begins "ra" l || begins "glon" l) && pos d then opp d else d).
Lemma axis_card_vals a sh i ax :
  lastv (axis_cards a sh i ax) (KI "CTYPE" (i + 1)) = Some (VS V (upper ax)) /\
  lastv (axis_cards a sh i ax) (KI "CRPIX" (i + 1)) = Some (VN V (of_nat (Nat.div2 (nth (length sh - (i + 1)) sh O + 1)))) /\
  lastv (axis_cards a sh i ax) (KI "CRVAL" (i + 1)) = Some (VN V (fst (axis_vd a ax))) /\
  lastv (axis_cards a sh i ax) (KI "CDELT" (i + 1)) = Some (VN V (snd (axis_vd a ax))) /\
  lastv (axis_cards a sh i ax) (KI "CROTA" (i + 1)) = Some (VN V zero).
Proof.
  unfold axis_cards, FitsModel.axis_cards, axis_vd. match goal with |- context [let '(_, _) := ?x in _] => destruct x as [v d] end.
  unfold lastv. cbn [fold_left keqb]. rewrite !Nat.eqb_refl. cbn. repeat split; reflexivity.
Qed.
Lemma axis_vd_spec a ax : axis_values V zero one opp pos a ax (fst (axis_vd a ax)) (snd (axis_vd a ax)).
Proof.
  unfold axis_vd, axis_values, leftward. rewrite <- !begins_axis.
  destruct (begins "ra" (lower ax)) eqn:E1; cbn [orb andb fst snd]; [left; auto|].
  destruct (begins "glon" (lower ax)) eqn:E2; cbn [orb andb fst snd]; [left; auto|].
  destruct (begins "dec" (lower ax)) eqn:E3; cbn [orb andb fst snd]; [right; left; auto|].
  destruct (begins "glat" (lower ax)) eqn:E4; cbn [orb andb fst snd]; [right; left; auto|].
  destruct (begins "freq" (lower ax)) eqn:E5; cbn [orb andb fst snd]; [right; right; left; auto|].
  destruct (begins "stokes" (lower ax)) eqn:E6; cbn [orb andb fst snd]; [right; right; right; left; auto|].
  right; right; right; right. repeat split. repeat constructor; apply begins_axis_false; assumption.
Qed.
Variables amax amin : list V -> V.
Notation all_cards := (all_cards V zero one of_nat opp pos amax amin).
Lemma all_KI a sh pix n i ax : nth_error (a_axes V a) i = Some ax -> lastv (all_cards a sh pix) (KI n (i + 1)) = lastv (axis_cards a sh i ax) (KI n (i + 1)).
Proof.
  intros H. unfold all_cards, FitsModel.all_cards. rewrite !lastv_app. pose proof (axes_nth a sh (a_axes V a) n 0 i ax H) as E. cbn [Nat.add] in E. rewrite E.
  change (lastv [_; _] (KI n (i + 1))) with (@None (val V)). destruct (lastv (axis_cards a sh i ax) _); reflexivity.
Qed.

End A.
Section D.
Variable V : Type.
Notation kget := (kget V). Notation kset := (kset V).
(* ---- dictionaries ---- *)
Lemma kset_get d k v q : kget (kset d k v) q = if String.eqb k q then Some v else kget d q.
Proof.
  induction d as [|[p w] r IH]; cbn; [reflexivity|]. destruct (String.eqb_spec p k) as [->|N]; cbn.
  - destruct (String.eqb k q); reflexivity.
  - rewrite IH. destruct (String.eqb_spec p q) as [->|N2], (String.eqb_spec k q) as [->|N3]; congruence.
Qed.
Lemma kset_keys d k v q : In q (map fst (kset d k v)) <-> q = k \/ In q (map fst d).
Proof.
  induction d as [|[p w] r IH]; cbn; [intuition congruence|]. destruct (String.eqb_spec p k) as [->|N]; cbn; [|rewrite IH]; intuition congruence.
Qed.
Lemma kset_nodup d k v : NoDup (map fst d) -> NoDup (map fst (kset d k v)).
Proof.
  induction d as [|[p w] r IH]; intros H; cbn; [repeat constructor; auto|]. inversion H as [|x l N D]; subst.
  destruct (String.eqb_spec p k) as [->|NE]; cbn; [exact H|]. constructor; [|auto]. rewrite kset_keys. intros [K|K]; [congruence|contradiction].
Qed.
Lemma kget_in d k v : NoDup (map fst d) -> In (k, v) d <-> kget d k = Some v.
Proof.
  induction d as [|[p w] r IH]; intros H; cbn; [split; [tauto|discriminate]|]. inversion H as [|x l N D]; subst.
  destruct (String.eqb_spec p k) as [->|NE].
  - split; [|intros [= ->]; left; reflexivity]. intros [[= ->]|K]; [reflexivity|]. exfalso. apply N. apply (in_map fst _ _ K).
  - rewrite <- (IH D). split; [intros [[= E _]|K]; [congruence|exact K]|tauto].
Qed.
End D.
