From Coq Require Import Ascii String.
From Verif Require Import Base ScriptModel ImgModel FitsModel FitsSpec FitsProofs FitsProofs2.
Local Open Scope Z_scope.
Local Notation length := List.length.

Lemma names_nodup : NoDup ["object"; "telescope"; "instrument"; "observer"; "obs_date"; "epoch"; "origin"; "cur_date"]%string.
Proof. repeat constructor; cbn; intuition discriminate. Qed.
Section P.
Variable V : Type.
Variables (zero one : V) (of_nat : nat -> V) (add mul : V -> V -> V) (opp : V -> V) (pos finite : V -> bool) (veqb : V -> V -> bool).
Variables amax amin : list V -> V.
Variable reread : V -> V.
Hypothesis CN : card_numbers V zero one of_nat opp pos finite veqb reread.
Notation hget := (hget V). Notation kget := (kget V). Notation kset := (kset V).
Notation store := (store V reread). Notation sets := (sets V finite). Notation legal := (legal V finite).
Notation all_cards := (all_cards V zero one of_nat opp pos amax amin).
Notation axis_cards := (axis_cards V zero one of_nat opp pos).
Notation axis_vd := (axis_vd V zero one opp pos).
Notation lastv := (lastv V).
Notation to_fits := (to_fits V zero one of_nat opp pos finite amax amin reread).
Notation from_fits := (from_fits V zero one add mul veqb).
Notation leftward := (leftward V opp pos).
Notation written drops := (written V zero one of_nat opp pos amax amin reread drops).
Notation open_pix := (open_pix V zero one add mul veqb).
Notation open_cards := (open_cards V zero one veqb).
Notation axis_step := (axis_step V opp pos reread).
Notation axis_item := (axis_item V opp pos reread).

Definition d0 (h : header V) : kwds V :=
  fold_left (fun d '(fn, n) => match hget h (K fn) with Some v => kset d n (Val V v) | None => d end) hitems [].
Lemma written_good drops a sh pix hist u i ax : written drops a sh pix hist u -> nth_error (a_axes V a) i = Some ax ->
  good_axis V zero one opp pos reread a (open_cards u) i ax.
Proof.
  intros [_ [_ [_ W]]] E. destruct (axis_card_vals V zero one of_nat opp pos a sh i ax) as [C1 [_ [C2 [C3 _]]]].
  unfold good_axis. rewrite !open_get, !W by reflexivity.
  assert (A : forall n, lastv (all_cards a sh pix) (KI n (i + 1)) = lastv (axis_cards a sh i ax) (KI n (i + 1))) by (intros n; eapply all_KI; exact E).
  rewrite !A, C1, C2, C3.
  unfold kept. cbn [is_naxis is_scale String.eqb Ascii.eqb Bool.eqb negb option_map FitsModel.store]. rewrite !andb_false_r. repeat split.
Qed.
Lemma from_fits_written drops a sh pix hist u f name : written drops a sh pix hist u -> length sh = length (a_axes V a) -> f name = Some u ->
  from_fits f name = Ok (sh, open_pix u, kset (fold_left (axis_step a) (a_axes V a) (d0 (open_cards u))) "axes" (Axes V (map low (a_axes V a)))).
Proof.
  intros W L F. unfold FitsModel.from_fits. rewrite F. fold (d0 (open_cards u)).
  assert (T : hget (open_cards u) (K "TRANSPOS") = Some (VN V zero)).
  { rewrite open_get by reflexivity. destruct W as [_ [_ [_ W]]]. rewrite W. unfold kept. cbn [is_naxis is_scale String.eqb Ascii.eqb Bool.eqb orb]. rewrite andb_false_r. cbn [negb andb].
    rewrite all_K. cbn. do 2 f_equal. apply CN. }
  rewrite T. cbn [truthy]. assert (Z : veqb zero zero = true) by apply CN. rewrite Z. cbn [negb].
  pose proof W as [-> _]. rewrite L.
  rewrite (axes_kwds_fold V zero one opp pos reread a (open_cards u) (a_axes V a) 0) by (intros i ax E; apply (written_good _ _ _ _ _ _ _ _ W E)).
  reflexivity.
Qed.
Lemma d0_drops a sh pix hist u : written true a sh pix hist u ->
  open_cards u = u_cards V u /\ open_pix u = pix /\
  d0 (open_cards u) = [("object", Val V (store (a_object V a))); ("telescope", Val V (store (a_telescope V a))); ("instrument", Val V (store (a_instrument V a)));
      ("observer", Val V (store (a_observer V a))); ("obs_date", Val V (store (a_obs_date V a))); ("epoch", Val V (store (a_epoch V a)));
      ("origin", Val V (store (a_origin V a))); ("cur_date", Val V (store (a_cur_date V a)))]%string.
Proof.
  intros [_ [P [_ W]]].
  assert (S : scaled V zero one veqb (u_cards V u) = false).
  { unfold scaled, scale_of. rewrite !W. cbn. assert (E : veqb one one = true /\ veqb zero zero = true) by (split; apply CN). destruct E as [-> ->]. reflexivity. }
  assert (O : open_cards u = u_cards V u) by (unfold FitsModel.open_cards; rewrite S; reflexivity).
  split; [exact O|]. split.
  - unfold FitsModel.open_pix. rewrite S. destruct (scale_of _ _ _ _). exact P.
  - rewrite O. unfold d0, hitems. cbn [fold_left]. rewrite !W, !all_K. cbn. reflexivity.
Qed.
Lemma step_nodup a r : forall d, NoDup (map fst d) -> NoDup (map fst (fold_left (axis_step a) r d)).
Proof.
  induction r as [|ax r IH]; intros d H; [exact H|]. cbn. apply IH. unfold FitsProofs2.axis_step.
  destruct (begins "ra" (lower ax)); [repeat apply kset_nodup; exact H|]. destruct (begins "dec" (lower ax)); [repeat apply kset_nodup; exact H|].
  destruct (begins "freq" (lower ax)); [repeat apply kset_nodup; exact H|exact H].
Qed.
Lemma back_store v w : back V reread v w <-> w = store v.
Proof.
  split.
  - intros [s t T|x]; cbn; [apply trimmed_rtrim in T; congruence|reflexivity].
  - intros ->. destruct v as [s|x]; cbn; constructor. apply rtrim_trimmed.
Qed.
Lemma existsb_axis p l : existsb (isax p) l = true <-> Exists (axis_is p) l.
Proof.
  rewrite existsb_exists, Exists_exists. split; intros [x [I H]]; exists x; split; try exact I; apply begins_axis; exact H.
Qed.
Lemma axes_low l t : Forall2 (fun ax t => rtrimmed (map small ax) t) l t <-> t = map low l.
Proof.
  split.
  - induction 1 as [|ax s l t H F IH]; [reflexivity|]. cbn. apply trimmed_rtrim in H. f_equal; [rewrite low_alt, <- map_small; exact H|exact IH].
  - intros ->. induction l as [|ax l IH]; cbn; constructor; [|exact IH]. apply trimmed_rtrim. rewrite low_alt, map_small. reflexivity.
Qed.
Definition kw_of (a : args V) : kwds V :=
  kset (fold_left (axis_step a) (a_axes V a)
     [("object", Val V (store (a_object V a))); ("telescope", Val V (store (a_telescope V a))); ("instrument", Val V (store (a_instrument V a)));
      ("observer", Val V (store (a_observer V a))); ("obs_date", Val V (store (a_obs_date V a))); ("epoch", Val V (store (a_epoch V a)));
      ("origin", Val V (store (a_origin V a))); ("cur_date", Val V (store (a_cur_date V a)))]%string) "axes" (Axes V (map low (a_axes V a))).
Lemma kw_nodup a : NoDup (map fst (kw_of a)).
Proof.
  unfold kw_of. apply kset_nodup, step_nodup. exact names_nodup.
Qed.
Lemma kw_told a k v : kget (kw_of a) k = Some v <-> told V opp pos reread a k v.
Proof.
  unfold kw_of. rewrite kset_get, fold_get. split.
  - destruct (String.eqb_spec "axes" k) as [<-|]; [intros [= <-]; constructor; apply axes_low; reflexivity|].
    unfold FitsProofs2.axis_item.
    destruct (String.eqb "ra" k && existsb (isax "ra") (a_axes V a)) eqn:E1;
      [apply andb_prop in E1; destruct E1 as [E1 X]; apply String.eqb_eq in E1; subst k; intros [= <-]; constructor; [apply existsb_axis, X|apply back_store; reflexivity]|].
    destruct (String.eqb "d_ra" k && existsb (isax "ra") (a_axes V a)) eqn:E2;
      [apply andb_prop in E2; destruct E2 as [E2 X]; apply String.eqb_eq in E2; subst k; intros [= <-]; constructor; [apply existsb_axis, X|apply back_store; reflexivity]|].
    destruct (String.eqb "dec" k && existsb (isax "dec") (a_axes V a)) eqn:E3;
      [apply andb_prop in E3; destruct E3 as [E3 X]; apply String.eqb_eq in E3; subst k; intros [= <-]; constructor; [apply existsb_axis, X|apply back_store; reflexivity]|].
    destruct (String.eqb "d_dec" k && existsb (isax "dec") (a_axes V a)) eqn:E4;
      [apply andb_prop in E4; destruct E4 as [E4 X]; apply String.eqb_eq in E4; subst k; intros [= <-]; constructor; [apply existsb_axis, X|apply back_store; reflexivity]|].
    destruct (String.eqb "freq" k && existsb (isax "freq") (a_axes V a)) eqn:E5;
      [apply andb_prop in E5; destruct E5 as [E5 X]; apply String.eqb_eq in E5; subst k; intros [= <-]; constructor; [apply existsb_axis, X|apply back_store; reflexivity]|].
    destruct (String.eqb "d_freq" k && existsb (isax "freq") (a_axes V a)) eqn:E6;
      [apply andb_prop in E6; destruct E6 as [E6 X]; apply String.eqb_eq in E6; subst k; intros [= <-]; constructor; [apply existsb_axis, X|apply back_store; reflexivity]|].
    cbn [FitsModel.kget]. intros H.
    repeat match type of H with (if String.eqb ?s k then _ else _) = _ => destruct (String.eqb_spec s k) as [<-|];
       [injection H as <-; constructor; apply back_store; reflexivity|] end. discriminate.
  - intros [w B|w B|w B|w B|w B|w B|w B|w B|l F|w X B|w X B|w X B|w X B|w X B|w X B];
      try (apply back_store in B; subst w); try (apply axes_low in F; subst l);
      try (apply existsb_axis in X; unfold FitsProofs2.axis_item; cbn; rewrite X); reflexivity.
Qed.
Lemma kw_says a : says V (kw_of a) (told V opp pos reread a).
Proof. split; [apply kw_nodup|]. intros k v. rewrite kget_in by apply kw_nodup. apply kw_told. Qed.
Lemma roundtrip f name sh pix cl a f' : to_fits true f name sh pix cl a = Ok f' -> from_fits f' name = Ok (squeeze sh, pix, kw_of a).
Proof.
  intros H. apply to_fits_inv in H. destruct H as [L [_ [_ [_ [hist [u [_ [W ->]]]]]]]].
  rewrite (from_fits_written true a (squeeze sh) pix hist u) by (cbn; rewrite ?streq_refl; auto).
  destruct (d0_drops _ _ _ _ _ W) as [_ [-> ->]]. reflexivity.
Qed.

(* ---- calling to_fits again with what from_fits returned ---- *)
Definition pick (d : kwds V) (k : string) (old : val V) : val V := match kget d k with Some (Val _ w) => w | _ => old end.
Definition pickn (d : kwds V) (k : string) (old : V) : V := match kget d k with Some (Val _ (VN _ w)) => w | _ => old end.
Definition names : list string := ["object"; "telescope"; "instrument"; "observer"; "origin"; "obs_date"; "cur_date"; "epoch"; "bscale"; "bzero"]%string.
Definition nnames : list string := ["ra"; "dec"; "d_ra"; "d_dec"; "freq"; "d_freq"]%string.
Definition fits_item (k : string) (v : item V) : Prop :=
  (In k names /\ exists w, v = Val V w) \/ (In k nnames /\ exists x, v = Val V (VN V x)) \/ (k = "axes"%string /\ exists l, v = Axes V l).
Definition merged (a : args V) (d : kwds V) : args V :=
  Args V (match kget d "axes" with Some (Axes _ l) => l | _ => a_axes V a end) (pick d "object" (a_object V a)) (pick d "telescope" (a_telescope V a))
    (pick d "instrument" (a_instrument V a)) (pick d "observer" (a_observer V a)) (pick d "origin" (a_origin V a)) (pick d "obs_date" (a_obs_date V a))
    (pick d "cur_date" (a_cur_date V a)) (pickn d "ra" (a_ra V a)) (pickn d "dec" (a_dec V a)) (pickn d "d_ra" (a_d_ra V a)) (pickn d "d_dec" (a_d_dec V a))
    (pick d "epoch" (a_epoch V a)) (pickn d "freq" (a_freq V a)) (pickn d "d_freq" (a_d_freq V a)) (pick d "bscale" (a_bscale V a)) (pick d "bzero" (a_bzero V a)) (a_history V a).
Lemma call_merged d : NoDup (map fst d) -> (forall k v, In (k, v) d -> fits_item k v) -> forall a, call_args V a d = Ok (merged a d).
Proof.
  induction d as [|[k v] r IH]; intros ND F a; [destruct a; reflexivity|]. inversion ND as [|x l NI D]; subst. cbn [call_args].
  assert (G : kget r k = None).
  { destruct (kget r k) eqn:E; [|reflexivity]. apply kget_in in E; [|exact D]. exfalso. apply NI, (in_map fst _ _ E). }
  assert (IH' := IH D (fun k v I => F k v (or_intror I))). clear IH.
  destruct a as [axes ob te ins obs ori od cd ra dec dra ddec ep fr dfr bs bz hi].
  destruct (F k v (or_introl eq_refl)) as [[I [w ->]]|[[I [w ->]]|[-> [w ->]]]];
    [repeat (destruct I as [<-|I]; [cbn [set_arg bind String.eqb Ascii.eqb Bool.eqb]; rewrite IH'; unfold merged, pick, pickn; cbn; rewrite G; reflexivity|]); destruct I
    |repeat (destruct I as [<-|I]; [cbn [set_arg bind String.eqb Ascii.eqb Bool.eqb]; rewrite IH'; unfold merged, pick, pickn; cbn; rewrite G; reflexivity|]); destruct I
    |cbn [set_arg bind String.eqb Ascii.eqb Bool.eqb]; rewrite IH'; unfold merged, pick, pickn; cbn; rewrite G; reflexivity].
Qed.
End P.
