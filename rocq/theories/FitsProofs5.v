From Coq Require Import Ascii String.
From Verif Require Import Base ScriptModel ImgModel FitsModel FitsSpec FitsProofs FitsProofs2 FitsProofs3 FitsProofs4.
Local Open Scope Z_scope.
Local Notation length := List.length.

Lemma low_low ax : low (low ax) = low ax.
Proof. rewrite !low_alt. rewrite <- (low_alt ax). unfold low at 1. rewrite lower_lower. fold (low ax). rewrite low_alt, rtrim_rtrim. reflexivity. Qed.
Lemma map_low_low l : map low (map low l) = map low l.
Proof. rewrite map_map. apply map_ext, low_low. Qed.
Lemma lower_low ax : lower (low ax) = low ax.
Proof. unfold low. apply lower_lower. Qed.
Lemma isax_low p l : In p ["ra"; "dec"; "freq"]%string -> existsb (isax p) (map low l) = existsb (isax p) l.
Proof.
  intros H. induction l as [|ax l IH]; [reflexivity|]. cbn. rewrite IH. f_equal. unfold isax. rewrite lower_low. apply begins_low, H.
Qed.
Lemma in_number {A} (l : list A) : forall j i x, In (i, x) (number j l) -> In x l.
Proof. induction l as [|y l IH]; intros j i x; cbn; [tauto|]. intros [[= _ ->]|H]; [auto|right; eapply IH, H]. Qed.
Lemma number_in {A} (l : list A) x : In x l -> forall j, exists i, In (i, x) (number j l).
Proof. induction l as [|y l IH]; [intros []|]. intros [->|H] j; cbn; [eauto|]. destruct (IH H (S j)) as [i K]. eauto. Qed.

Section P.
Variable V : Type.
Variables (zero one : V) (of_nat : nat -> V) (add mul : V -> V -> V) (opp : V -> V) (pos finite : V -> bool) (veqb : V -> V -> bool).
Variables amax amin : list V -> V.
Variable reread : V -> V.
Hypothesis CN : card_numbers V zero one of_nat opp pos finite veqb reread.
Notation store := (store V reread). Notation legal := (legal V finite). Notation kget := (kget V).
Notation all_cards := (all_cards V zero one of_nat opp pos amax amin).
Notation axis_cards := (axis_cards V zero one of_nat opp pos).
Notation axis_vd := (axis_vd V zero one opp pos).
Notation to_fits := (to_fits V zero one of_nat opp pos finite amax amin reread).
Notation from_fits := (from_fits V zero one add mul veqb).
Notation leftward := (leftward V opp pos).
Notation kw_of := (kw_of V opp pos reread).

Lemma legal_holds v : legal v = true <-> holds V finite v.
Proof. destruct v as [s|x]; cbn; [apply forallb_text|reflexivity]. Qed.
Lemma axis_legal a sh i ax : forallb (fun p => legal (snd p)) (axis_cards a sh i ax) = true <->
  ascii_text ax /\ finite (fst (axis_vd a ax)) = true /\ finite (snd (axis_vd a ax)) = true.
Proof.
  assert (Z : finite zero = true) by apply CN. assert (N : forall n, finite (of_nat n) = true) by apply CN.
  unfold FitsModel.axis_cards, FitsProofs.axis_vd. match goal with |- context [let '(_, _) := ?x in _] => destruct x as [v d] end.
  cbn [forallb snd FitsModel.legal fst]. rewrite Z, !N, !andb_true_r. unfold upper. rewrite forallb_map_p by apply printable_upper1.
  rewrite <- forallb_text. rewrite !andb_true_iff. cbn. tauto.
Qed.
Lemma cards_legal a sh pix : forallb (fun p => legal (snd p)) (all_cards a sh pix) = true <->
  Forall (holds V finite) (given V a) /\ (forall v, used V zero one opp pos a v -> finite v = true) /\ finite (amax pix) = true /\ finite (amin pix) = true.
Proof.
  assert (Z : finite zero = true) by apply CN.
  assert (A : forallb (fun p => legal (snd p)) (flat_map (fun '(i, ax) => axis_cards a sh i ax) (number 0 (a_axes V a))) = true <->
     Forall ascii_text (a_axes V a) /\ (forall v, used V zero one opp pos a v -> finite v = true)).
  { rewrite forallb_forall, Forall_forall. split.
    - intros H. assert (B : forall ax, In ax (a_axes V a) -> ascii_text ax /\ finite (fst (axis_vd a ax)) = true /\ finite (snd (axis_vd a ax)) = true).
      { intros ax I. destruct (number_in _ _ I 0) as [i J]. apply (axis_legal a sh i ax). apply forallb_forall. intros p K. apply H.
        apply in_flat_map. exists (i, ax). auto. }
      split; [intros ax I; apply B, I|]. intros v (ax & d & I & [E|E]); apply axis_values_vd in E; destruct (B ax I) as [_ [B1 B2]]; rewrite <- E in *; assumption.
    - intros [H U] p K. apply in_flat_map in K. destruct K as [[i ax] [I J]]. apply in_number in I.
      assert (L : forallb (fun p => legal (snd p)) (axis_cards a sh i ax) = true).
      { apply axis_legal. split; [apply H, I|]. destruct (axis_vd a ax) as [v d] eqn:E. split; apply U; exists ax; [exists d|exists v]; (split; [exact I|]);
          [left|right]; apply axis_values_vd; symmetry; exact E. }
      rewrite forallb_forall in L. apply L, J. }
  unfold FitsModel.all_cards. rewrite !forallb_app, !andb_true_iff, A. clear A. cbn [forallb snd]. cbn [FitsModel.legal]. rewrite Z, !andb_true_iff. unfold given.
  rewrite Forall_app, Forall_map. rewrite !legal_holds. repeat rewrite Forall_cons_iff. cbn. split; [intuition|]. intuition.
Qed.
Lemma legal_store v : legal (store v) = legal v.
Proof. destruct v as [s|x]; cbn; [apply forallb_rtrim|apply CN]. Qed.
Lemma store_store v : store (store v) = store v.
Proof. destruct v as [s|x]; cbn; [rewrite rtrim_rtrim; reflexivity|f_equal; apply CN]. Qed.
Lemma leftward_neg d : pos (leftward d) = false.
Proof. unfold FitsSpec.leftward. destruct (pos d) eqn:E; [apply CN, E|exact E]. Qed.
Lemma leftward_again d : leftward (reread (leftward d)) = reread (leftward d).
Proof. unfold FitsSpec.leftward at 1. assert (E : pos (reread (leftward d)) = pos (leftward d)) by apply CN. rewrite E, leftward_neg. reflexivity. Qed.
Variable today : str.
Variable v2000 : V.
Notation defaults := (defaults V zero today v2000).
Definition again (a : args V) : args V :=
  let has p := existsb (isax p) (a_axes V a) in
  Args V (map low (a_axes V a)) (store (a_object V a)) (store (a_telescope V a)) (store (a_instrument V a)) (store (a_observer V a)) (store (a_origin V a))
    (store (a_obs_date V a)) (store (a_cur_date V a)) (if has "ra"%string then reread (a_ra V a) else zero) (if has "dec"%string then reread (a_dec V a) else zero)
    (if has "ra"%string then reread (leftward (a_d_ra V a)) else zero) (if has "dec"%string then reread (a_d_dec V a) else zero) (store (a_epoch V a))
    (if has "freq"%string then reread (a_freq V a) else zero) (if has "freq"%string then reread (a_d_freq V a) else zero) (VN V zero) (VN V zero) [].
Lemma kw_get a k : kget (kw_of a) k = if String.eqb "axes" k then Some (Axes V (map low (a_axes V a))) else
  match axis_item V opp pos reread a (a_axes V a) k with Some v => Some v | None => kget
     [("object", Val V (store (a_object V a))); ("telescope", Val V (store (a_telescope V a))); ("instrument", Val V (store (a_instrument V a)));
      ("observer", Val V (store (a_observer V a))); ("obs_date", Val V (store (a_obs_date V a))); ("epoch", Val V (store (a_epoch V a)));
      ("origin", Val V (store (a_origin V a))); ("cur_date", Val V (store (a_cur_date V a)))]%string k end.
Proof. unfold FitsProofs3.kw_of. rewrite kset_get, fold_get. reflexivity. Qed.
Lemma merged_again a : merged V defaults (kw_of a) = again a.
Proof.
  unfold merged, again, pick, pickn. rewrite !kw_get. unfold axis_item. cbn.
  destruct (existsb (isax "ra") (a_axes V a)), (existsb (isax "dec") (a_axes V a)), (existsb (isax "freq") (a_axes V a)); reflexivity.
Qed.
Lemma kw_again a k : kget (kw_of (again a)) k = kget (kw_of a) k.
Proof.
  rewrite !kw_get. unfold axis_item. cbn [again a_axes a_object a_telescope a_instrument a_observer a_origin a_obs_date a_cur_date a_ra a_dec a_d_ra a_d_dec a_epoch a_freq a_d_freq].
  rewrite map_low_low, !isax_low, !store_store by (cbn; auto).
  assert (R : forall x, reread (reread x) = reread x) by apply CN.
  destruct (existsb (isax "ra") (a_axes V a)), (existsb (isax "dec") (a_axes V a)), (existsb (isax "freq") (a_axes V a)); rewrite ?leftward_again, ?R, ?andb_false_r; reflexivity.
Qed.
Lemma kw_fits a k v : In (k, v) (kw_of a) -> fits_item V k v.
Proof.
  intros H. apply kget_in in H; [|apply kw_nodup]. apply kw_told in H.
  unfold fits_item, names, nnames.
  destruct H as [w B|w B|w B|w B|w B|w B|w B|w B|l F|w X B|w X B|w X B|w X B|w X B|w X B];
    first [left; split; [cbn; tauto|eexists; reflexivity]|right; right; split; [reflexivity|eexists; reflexivity]|right; left; split; [cbn; tauto|inversion B; eexists; reflexivity]].
Qed.
Lemma again_legal a sh pix : forallb (fun p => legal (snd p)) (all_cards a sh pix) = true -> forallb (fun p => legal (snd p)) (all_cards (again a) sh pix) = true.
Proof.
  rewrite !cards_legal. intros (G & U & M1 & M2). split; [|split; [|split; assumption]].
  - revert G. unfold given. rewrite !Forall_app, !Forall_map. intros [G1 G2]. split.
    + cbn [again a_object a_telescope a_instrument a_observer a_origin a_obs_date a_cur_date a_epoch a_bscale a_bzero]. revert G1.
      repeat rewrite Forall_cons_iff. rewrite <- !legal_holds, !legal_store. cbn. assert (Z : finite zero = true) by apply CN. rewrite Z. intuition.
    + cbn [again a_axes]. rewrite Forall_map. eapply Forall_impl; [|exact G2]. intros ax. cbn [holds]. rewrite <- !forallb_text. rewrite low_alt, forallb_rtrim.
      unfold lower. rewrite forallb_map_p by apply printable_lower1. auto.
  - assert (Z : finite zero = true) by apply CN. assert (O : finite one = true) by apply CN. assert (R : forall x, finite (reread x) = finite x) by apply CN.
    assert (OP : forall x, finite x = true -> finite (opp x) = true) by apply CN.
    assert (B : forall p, existsb (isax p) (a_axes V a) = true -> exists ax, In ax (a_axes V a) /\ begins p (lower ax) = true) by (intros p H; apply existsb_exists in H; exact H).
    assert (W : forall ax, In ax (a_axes V a) -> finite (fst (axis_vd a ax)) = true /\ finite (snd (axis_vd a ax)) = true).
    { intros ax I. destruct (axis_vd a ax) as [v d] eqn:E. split; apply U; exists ax; [exists d|exists v]; (split; [exact I|]); [left|right]; apply axis_values_vd; symmetry; exact E. }
    assert (Fra : finite (a_ra V (again a)) = true /\ finite (a_d_ra V (again a)) = true).
    { cbn. destruct (existsb (isax "ra") (a_axes V a)) eqn:E; [|auto]. destruct (B _ E) as [ax [I H]]. destruct (W ax I) as [W1 W2].
      rewrite !R. unfold FitsProofs.axis_vd in *. rewrite H in *. cbn in *. auto. }
    assert (Fdec : finite (a_dec V (again a)) = true /\ finite (a_d_dec V (again a)) = true).
    { cbn. destruct (existsb (isax "dec") (a_axes V a)) eqn:E; [|auto]. destruct (B _ E) as [ax [I H]]. destruct (W ax I) as [W1 W2].
      rewrite !R. unfold FitsProofs.axis_vd in *. rewrite (begins_dec_glat "dec" "ra"), (begins_dec_glat "dec" "glon"), H in * by (cbn; auto 10). cbn in *. auto. }
    assert (Ffr : finite (a_freq V (again a)) = true /\ finite (a_d_freq V (again a)) = true).
    { cbn. destruct (existsb (isax "freq") (a_axes V a)) eqn:E; [|auto]. destruct (B _ E) as [ax [I H]]. destruct (W ax I) as [W1 W2].
      rewrite !R. unfold FitsProofs.axis_vd in *. rewrite (begins_dec_glat "freq" "ra"), (begins_dec_glat "freq" "glon"), (begins_dec_glat "freq" "dec"), (begins_dec_glat "freq" "glat"), H in * by (cbn; auto 10).
      cbn in *. auto. }
    intros v (ax & d & _ & K).
    assert (X : finite (fst (axis_vd (again a) ax)) = true /\ finite (snd (axis_vd (again a) ax)) = true).
    { destruct Fra, Fdec, Ffr. generalize dependent (again a). intros a' P. intros. unfold FitsProofs.axis_vd.
      destruct (begins "ra" (lower ax) || begins "glon" (lower ax)); cbn [andb fst snd].
      - split; [assumption|]. destruct (pos (a_d_ra V a')); auto.
      - destruct (begins "dec" (lower ax) || begins "glat" (lower ax)); cbn [fst snd]; [auto|]. destruct (begins "freq" (lower ax)); cbn [fst snd]; [auto|].
        destruct (begins "stokes" (lower ax)); cbn [fst snd]; auto. }
    destruct K as [K|K]; apply axis_values_vd in K; rewrite <- K in X; apply X.
Qed.
Lemma rewrite_again f name sh pix cl a f1 m cl2 : to_fits true f name sh pix cl a = Ok f1 ->
  exists f2, call_args V defaults (kw_of a) = Ok (again a) /\ to_fits true f1 m (squeeze sh) pix cl2 (again a) = Ok f2 /\
    from_fits f2 m = Ok (squeeze sh, pix, kw_of (again a)).
Proof.
  intros H. assert (OK : is_ok (to_fits true f1 m (squeeze sh) pix cl2 (again a)) = true).
  { assert (E : is_ok (to_fits true f name sh pix cl a) = true) by (rewrite H; reflexivity). rewrite to_fits_ok in E |- *.
    rewrite !andb_true_iff in E |- *. destruct E as [[[[E1 E2] E3] E4] _]. rewrite squeeze_squeeze. cbn [again a_axes a_history]. rewrite map_length.
    split; [split; [split; [split; assumption|assumption]|apply again_legal, E4]|reflexivity]. }
  destruct (to_fits true f1 m (squeeze sh) pix cl2 (again a)) as [f2|] eqn:T; [|discriminate]. exists f2.
  split; [|split; [reflexivity|]].
  - rewrite <- merged_again. apply call_merged; [apply kw_nodup|apply kw_fits].
  - pose proof T as T'. apply (roundtrip V zero one of_nat add mul opp pos finite veqb amax amin reread CN) in T'. rewrite squeeze_squeeze in T'. exact T'.
Qed.
End P.
