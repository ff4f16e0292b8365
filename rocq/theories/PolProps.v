(* C57: polarised arrays. *)
From Coq Require Import Reals Lra String.
From Verif Require Import Base CleanModel ImgModel GeoModel ArrModel PolModel PolSpec PolProofs.
Ltac Zify.zify_post_hook ::= idtac.
Open Scope R_scope.
Local Notation length := List.length.

Definition observing (r : parr) (pol : string) : parr := PArr (pr_ants r) (Some pol).
Definition has (fs : list R) (r : parr) (i : nat) (a : pant) : Prop := nth_error (pr_ants r) i = Some a /\ two_feeds fs a /\ current a.

(* update makes what an antenna derives current and leaves its parameters alone *)
Theorem C57_update fs a : two_feeds fs a -> exists b, pupdate a = Val b /\ current b /\ two_feeds fs b /\
  (forall p f, phase b p f = phase a p f) /\ (forall p f, gain b p f = gain a p f).
Proof. apply update_current. Qed.

(* which polarizations can be chosen *)
Theorem C57_active_pol r p : pset_active_pol r p =
  if in_dec string_dec p ["xx"; "yy"; "xy"; "yx"; "I"; "Q"; "U"; "V"]%string then Val (observing r p) else Exc AssertionError.
Proof.
  unfold pset_active_pol, pols8. destruct (in_dec _ _ _) as [I|N].
  - assert (E : existsb (String.eqb p) ["xx"; "yy"; "xy"; "yx"; "I"; "Q"; "U"; "V"]%string = true).
    { apply existsb_exists. exists p. split; auto. apply String.eqb_refl. }
    rewrite E. auto.
  - destruct (existsb _ _) eqn:E; auto. apply existsb_exists in E. destruct E as [x [I X]]. apply String.eqb_eq in X. subst. contradiction.
Qed.

(* gain of a linear polarization pq on baseline (i, j): feed q of j times the conjugate of feed p of i *)
Theorem C57_linear_passband fs r i j ai aj p q pol : has fs r i ai -> has fs r j aj -> linear p q pol ->
  ppassband (observing r pol) i j = Val (map (fun f => times (gain aj q f) (conjugate (gain ai p f))) fs).
Proof. intros [A1 [A2 A3]] [B1 [B2 B3]] L. eapply (linear_passband fs (observing r pol)); eauto. Qed.
(* swapping the antennas and the feeds conjugates it *)
Theorem C57_passband_exchanged fs r i j ai aj p q pq qp : has fs r i ai -> has fs r j aj -> linear p q pq -> linear q p qp ->
  exists l, ppassband (observing r pq) i j = Val l /\ ppassband (observing r qp) j i = Val (map conjugate l).
Proof.
  intros A B L1 L2. eexists. split; [apply (C57_linear_passband fs r i j ai aj p q pq); auto|].
  rewrite (C57_linear_passband fs r j i aj ai q p qp) by auto. rewrite map_map. f_equal. apply map_ext. intros f.
  unfold times, conjugate. cbn [fst snd]. f_equal; ring.
Qed.
(* phase offset of a linear polarization, and its closure around three antennas *)
Theorem C57_linear_offset fs r i j ai aj p q pol : has fs r i ai -> has fs r j aj -> linear p q pol ->
  pget_phs_offset (observing r pol) i j = Val (map (fun f => phase aj q f - phase ai p f) fs).
Proof. intros [A1 [A2 A3]] [B1 [B2 B3]] L. eapply (linear_offset fs (observing r pol)); eauto. Qed.
Theorem C57_offset_closure fs r i j k ai aj ak p q s pq qs ps sp : has fs r i ai -> has fs r j aj -> has fs r k ak ->
  linear p q pq -> linear q s qs -> linear p s ps -> linear s p sp ->
  exists a b c d, pget_phs_offset (observing r pq) i j = Val a /\ pget_phs_offset (observing r qs) j k = Val b /\
    pget_phs_offset (observing r ps) i k = Val c /\ pget_phs_offset (observing r sp) k i = Val d /\
    length a = length fs /\ length b = length fs /\ length c = length fs /\ length d = length fs /\
    forall n, (n < length fs)%nat -> nth n a 0 + nth n b 0 = nth n c 0 /\ nth n d 0 = - nth n c 0.
Proof.
  intros A B D L1 L2 L3 L4.
  exists (map (fun f => phase aj q f - phase ai p f) fs), (map (fun f => phase ak s f - phase aj q f) fs),
    (map (fun f => phase ak s f - phase ai p f) fs), (map (fun f => phase ai p f - phase ak s f) fs).
  split; [apply C57_linear_offset; auto|]. split; [apply C57_linear_offset; auto|]. split; [apply C57_linear_offset; auto|]. split; [apply C57_linear_offset; auto|].
  rewrite !map_length. repeat (split; [reflexivity|]). intros n H.
  assert (N : forall g : R -> R, nth n (map g fs) 0 = g (nth n fs 0)).
  { intros g. rewrite (nth_indep _ 0 (g 0)) by (rewrite map_length; auto). apply map_nth. }
  rewrite !N. split; ring.
Qed.
(* phase offsets of the Stokes parameters *)
Theorem C57_stokes_offset fs r i j ai aj : has fs r i ai -> has fs r j aj ->
  (forall pol, In pol ["I"; "U"]%string -> pget_phs_offset (observing r pol) i j =
     Val (map (fun f => (phase aj "x" f - phase ai "x" f) + (phase aj "y" f - phase ai "y" f)) fs)) /\
  pget_phs_offset (observing r "Q") i j = Val (map (fun f => (phase aj "y" f - phase ai "y" f) - (phase aj "x" f - phase ai "x" f)) fs) /\
  pget_phs_offset (observing r "V") i j = Val (map (fun f => (phase aj "y" f + phase ai "y" f) - (phase aj "x" f + phase ai "x" f)) fs).
Proof.
  intros [A1 [A2 A3]] [B1 [B2 B3]]. split; [|split].
  - intros pol [<-|[<-|[]]];
      [erewrite (stokes_offset fs (observing r "I") i j ai aj) by (try eassumption; try reflexivity; left; reflexivity)
      |erewrite (stokes_offset fs (observing r "U") i j ai aj) by (try eassumption; try reflexivity; right; right; left; reflexivity)];
      f_equal; apply map_ext; intros f; ring.
  - erewrite (stokes_offset fs (observing r "Q") i j ai aj) by (try eassumption; try reflexivity; right; left; reflexivity).
    f_equal; apply map_ext; intros f; ring.
  - erewrite (stokes_offset fs (observing r "V") i j ai aj) by (try eassumption; try reflexivity; right; right; right; left; reflexivity).
    f_equal; apply map_ext; intros f; ring.
Qed.

(* two antennas observing at frequencies 1 and 2 *)
Definition xyd {A} (u v : A) : pdict A := [("x"%string, u); ("y"%string, v)].
Definition raw (px py rx ry ix iy : list R) (gx gy : R) : pant :=
  PAnt [1; 2] (xyd px py) (xyd rx ry) (xyd ix iy) (xyd gx gy) [] [] (fun _ => [3; 4]) (fun _ => [4; 4]).
Definition made (a : pant) : pant := match pupdate a with Val b => b | Exc _ => a end.
Definition ex_a := raw [1; 0] [0] [1] [2] [0] [1] 3 1.
Definition ex_b := raw [2] [5; 1] [1; 1] [4] [2] [0] 1 2.
Definition ex_r := PArr [made ex_a; made ex_b] None.
Lemma raw_feeds a : (exists px py rx ry ix iy gx gy, a = raw px py rx ry ix iy gx gy) -> two_feeds [1; 2] a.
Proof.
  intros [px [py [rx [ry [ix [iy [gx [gy ->]]]]]]]]. split; [reflexivity|]. split.
  - intros p [<-|[<-|[]]]; cbn; eauto 10.
  - intros p x [H|[H|[]]]; injection H as <- <-; auto.
Qed.
Lemma ex_feeds a : a = ex_a \/ a = ex_b -> two_feeds [1; 2] (made a) /\ current (made a) /\ pupdate a = Val (made a).
Proof.
  intros H. assert (T : two_feeds [1; 2] a) by (apply raw_feeds; destruct H as [->| ->]; unfold ex_a, ex_b; repeat eexists).
  destruct (update_current _ _ T) as [b [E [E2 [E3 _]]]]. unfold made. rewrite E. auto.
Qed.
Example C57_hypotheses_met : two_feeds [1; 2] ex_a /\ has [1; 2] ex_r 0 (made ex_a) /\ has [1; 2] ex_r 1 (made ex_b) /\ linear "x" "y" "xy" /\ linear "y" "x" "yx" /\
  ppassband (observing ex_r "xy") 0 1 = Val [(24, 0); (24, 0)] /\ pget_phs_offset (observing ex_r "xy") 0 1 = Val [5; 9].
Proof.
  destruct (ex_feeds ex_a) as [A1 [A2 _]]; auto. destruct (ex_feeds ex_b) as [B1 [B2 _]]; auto.
  assert (H0 : has [1; 2] ex_r 0 (made ex_a)) by (split; [reflexivity|split; auto]).
  assert (H1 : has [1; 2] ex_r 1 (made ex_b)) by (split; [reflexivity|split; auto]).
  assert (L : linear "x" "y" "xy") by (right; left; reflexivity).
  split; [apply raw_feeds; unfold ex_a; repeat eexists|]. split; auto. split; auto. split; auto. split; [right; right; left; reflexivity|]. split.
  - rewrite (C57_linear_passband [1; 2] ex_r 0 1 _ _ _ _ _ H0 H1 L). cbn. unfold times, conjugate, gain. cbn. repeat f_equal; ring.
  - rewrite (C57_linear_offset [1; 2] ex_r 0 1 _ _ _ _ _ H0 H1 L). cbn. unfold phase. cbn. repeat f_equal; ring.
Qed.

(* Stokes V has the same phase offset on (i, j) as on (j, i), so exchanging the antennas does not conjugate the phase; on an
   autocorrelation the offset is 2 (phase y - phase x), not zero as for I, Q and U *)
Theorem C57_v_offset_refuted fs r i j ai aj : has fs r i ai -> has fs r j aj ->
  pget_phs_offset (observing r "V") i j = pget_phs_offset (observing r "V") j i /\
  pget_phs_offset (observing r "V") i i = Val (map (fun f => 2 * (phase ai "y" f - phase ai "x" f)) fs) /\
  ~ (forall fs r i j ai aj, has fs r i ai -> has fs r j aj -> exists l, pget_phs_offset (observing r "V") i j = Val l /\
      pget_phs_offset (observing r "V") j i = Val (map Ropp l)).
Proof.
  intros A B. split; [|split].
  - rewrite (proj2 (proj2 (C57_stokes_offset _ _ _ _ _ _ A B))), (proj2 (proj2 (C57_stokes_offset _ _ _ _ _ _ B A))).
    f_equal. apply map_ext. intros f. ring.
  - rewrite (proj2 (proj2 (C57_stokes_offset _ _ _ _ _ _ A A))). f_equal. apply map_ext. intros f. ring.
  - intros H. destruct C57_hypotheses_met as [_ [H0 [H1 _]]]. destruct (H _ _ _ _ _ _ H0 H0) as [l [E1 E2]].
    rewrite (proj2 (proj2 (C57_stokes_offset _ _ _ _ _ _ H0 H0))) in E1, E2. injection E1 as <-. injection E2 as E2 E3.
    unfold phase in *. cbn in *. lra.
Qed.
(* the offset of I and U is the sum of the offsets of xx and yy: when both feeds have the same phases a Stokes visibility turns twice
   as fast as the linear ones it is made of *)
Theorem C57_i_offset_refuted fs r i j ai aj : has fs r i ai -> has fs r j aj ->
  (forall f, In f fs -> phase ai "x" f = phase ai "y" f /\ phase aj "x" f = phase aj "y" f) ->
  exists l, pget_phs_offset (observing r "xx") i j = Val l /\ pget_phs_offset (observing r "yy") i j = Val l /\
    pget_phs_offset (observing r "I") i j = Val (map (fun x => 2 * x) l).
Proof.
  intros A B E. exists (map (fun f => phase aj "x" f - phase ai "x" f) fs).
  split; [apply C57_linear_offset; auto; left; reflexivity|]. split.
  - rewrite (C57_linear_offset fs r i j ai aj "y" "y" "yy" A B) by (right; right; right; left; reflexivity). f_equal.
    apply map_ext_in. intros f I. destruct (E f I). lra.
  - rewrite (proj1 (C57_stokes_offset _ _ _ _ _ _ A B)) by (left; reflexivity). rewrite map_map. f_equal.
    apply map_ext_in. intros f I. destruct (E f I). lra.
Qed.
Example C57_i_offset_met : let a := made (raw [1; 0] [1; 0] [1] [1] [0] [0] 1 1) in let b := made (raw [3] [3] [1] [1] [0] [0] 1 1) in
  let r := PArr [a; b] None in
  has [1; 2] r 0 a /\ has [1; 2] r 1 b /\ (forall f, In f [1; 2] -> phase a "x" f = phase a "y" f /\ phase b "x" f = phase b "y" f).
Proof.
  assert (G : forall px py, let a := made (raw px py [1] [1] [0] [0] 1 1) in two_feeds [1; 2] a /\ current a).
  { intros px py. cbv zeta. assert (T : two_feeds [1; 2] (raw px py [1] [1] [0] [0] 1 1)) by (apply raw_feeds; repeat eexists).
    destruct (update_current _ _ T) as [b [E [E2 [E3 _]]]]. unfold made. rewrite E. auto. }
  cbv zeta. destruct (G [1; 0] [1; 0]), (G [3] [3]). split; [split; [reflexivity|split; auto]|]. split; [split; [reflexivity|split; auto]|].
  intros f _. split; reflexivity.
Qed.
(* a Stokes polarization can be made active, but with gains for the feeds x and y there is none to look up: passband raises KeyError *)
Theorem C57_stokes_passband_refuted fs r i j ai aj pol : has fs r i ai -> has fs r j aj -> In pol ["I"; "Q"; "U"; "V"]%string ->
  pset_active_pol r pol = Val (observing r pol) /\ ppassband (observing r pol) i j = Exc KeyError.
Proof.
  intros [A1 [A2 A3]] [B1 [B2 B3]] I. split; [destruct I as [<-|[<-|[<-|[<-|[]]]]]; reflexivity|].
  eapply (stokes_passband fs (observing r pol)); eauto.
Qed.

(* responses: the feeds', their quadratic mean for I and Q, their geometric mean for U and V; anything else is refused *)
Theorem C57_responses a top : length (pa_respx a top) = length (pa_respy a top) ->
  pol_response a top "x" = Val (pa_respx a top) /\ pol_response a top "y" = Val (pa_respy a top) /\
  (exists m g, (forall p, In p ["I"; "Q"]%string -> pol_response a top p = Val m) /\ (forall p, In p ["U"; "V"]%string -> pol_response a top p = Val g) /\
    length m = length (pa_respx a top) /\ length g = length (pa_respx a top) /\
    forall n, (n < length (pa_respx a top))%nat -> let x := nth n (pa_respx a top) 0 in let y := nth n (pa_respy a top) 0 in
      nth n m 0 = sqrt ((x * x + y * y) / 2) /\ nth n g 0 = sqrt (x * y) /\
      (0 <= x -> 0 <= y -> Rmin x y <= nth n g 0 <= nth n m 0 /\ nth n m 0 <= Rmax x y /\ (nth n g 0 = nth n m 0 <-> x = y))) /\
  (forall p, String.length p = 1%nat -> ~ In p ["x"; "y"; "I"; "Q"; "U"; "V"]%string -> pol_response a top p = Exc AssertionError).
Proof.
  intros L. split; [reflexivity|]. split; [reflexivity|]. split.
  - set (X := pa_respx a top) in *. set (Y := pa_respy a top) in *.
    exists (zip_with (fun a b => sqrt (a + b)) (map (fun u => / 2 * (u * u)) X) (map (fun u => / 2 * (u * u)) Y)), (zip_with (fun a b => sqrt (a * b)) X Y).
    split; [intros p [<-|[<-|[]]]; unfold pol_response, feed_response; cbn [occurs String.prefix String.eqb Ascii.eqb Bool.eqb orb];
      cbn; unfold bcast; fold X Y; rewrite !map_length, L, Nat.eqb_refl; reflexivity|].
    split; [intros p [<-|[<-|[]]]; cbn; unfold bcast; fold X Y; rewrite L, Nat.eqb_refl; reflexivity|].
    clearbody X Y. revert Y L. induction X as [|x X IH]; intros [|y Y] L; cbn [length map zip_with] in *; try discriminate.
    { split; auto. split; auto. intros n H. lia. }
    destruct (IH Y) as [I1 [I2 I3]]; [lia|]. split; [lia|]. split; [lia|]. intros [|n] H; [|apply I3; lia]. cbn [nth].
    assert (Q : (x * x + y * y) / 2 = / 2 * (x * x) + / 2 * (y * y)) by field. rewrite Q. split; auto. split; auto. intros PX PY.
    destruct (quad_mean x y PX PY) as [Q1 [Q2 [Q3 Q4]]]. split; [split; auto|]. split; auto. split; auto. intros <-. f_equal. lra.
  - intros p P N. destruct p as [|c [|]]; try discriminate.
    assert (M : forall d : Ascii.ascii, In (String d EmptyString) ["x"; "y"; "I"; "Q"; "U"; "V"]%string -> Ascii.ascii_dec c d = Ascii.ascii_dec c d -> c <> d) by (intros d I _ ->; contradiction).
    assert (F : forall s, (forall d, In d (list_ascii_of_string s) -> c <> d) -> occurs (String c EmptyString) s = false).
    { clear. induction s as [|d s IH]; intros H; cbn [occurs String.prefix]; auto.
      destruct (Ascii.ascii_dec c d) as [->|]; [exfalso; apply (H d); [left; auto|auto]|]. cbn [orb]. apply IH. intros e I. apply H. right; auto. }
    unfold pol_response. rewrite !F; auto; intros d I; cbn [list_ascii_of_string In] in I;
      repeat (destruct I as [<-|I]; [apply M; cbn; auto 10|]); contradiction.
Qed.
Example C57_responses_met : length (pa_respx ex_a (0, 0, 1)) = length (pa_respy ex_a (0, 0, 1)) /\ length (pa_respx ex_a (0, 0, 1)) = 2%nat.
Proof. split; reflexivity. Qed.

(* ParAng is the position angle of the zenith seen from the source, from north through east *)
Theorem C57_parallactic_angle ha dec lat : let zenith := direction 0 lat in let q := par_ang ha dec lat in
  exists r, 0 <= r /\ inner zenith (east (- ha)) = r * sin q /\ inner zenith (north (- ha) dec) = r * cos q /\ - PI < q <= PI /\
    r * r + inner zenith (direction (- ha) dec) * inner zenith (direction (- ha) dec) = 1.
Proof. apply par_ang_position. Qed.
(* it is zero for a source on the meridian south of the zenith and pi for one north of it *)
Theorem C57_parallactic_meridian dec lat : - (PI / 2) <= dec <= PI / 2 -> - (PI / 2) < lat <= PI / 2 ->
  (dec < lat -> par_ang 0 dec lat = 0) /\ (lat < dec -> par_ang 0 dec lat = PI).
Proof.
  intros D L. pose proof PI_RGT_0. unfold par_ang. rewrite sin_0, cos_0. replace (sin lat * cos dec - cos lat * sin dec * 1) with (sin (lat - dec)) by (rewrite sin_minus; ring).
  replace (cos lat * 0) with 0 by ring. split; intros O.
  - assert (0 <= sin (lat - dec)) by (apply sin_ge_0; lra). unfold atan2. destruct (Rlt_dec 0 (sin (lat - dec))) as [P|P].
    + unfold Rdiv. rewrite Rmult_0_l. apply atan_0.
    + destruct (Rlt_dec (sin (lat - dec)) 0); [lra|]. destruct (Rlt_dec 0 0); [lra|]. destruct (Rlt_dec 0 0); lra.
  - assert (0 < sin (dec - lat)) by (apply sin_gt_0; lra). assert (sin (lat - dec) = - sin (dec - lat)) by (rewrite <- sin_neg; f_equal; ring).
      unfold atan2. destruct (Rlt_dec 0 (sin (lat - dec))); [lra|]. destruct (Rlt_dec (sin (lat - dec)) 0); [|lra].
      destruct (Rle_dec 0 0); [|lra]. unfold Rdiv. rewrite Rmult_0_l, atan_0. ring.
Qed.
Example C57_meridian_met : - (PI / 2) <= -1 / 2 <= PI / 2 /\ - (PI / 2) < 0 <= PI / 2 /\ -1 / 2 < 0.
Proof. pose proof PI2_1. lra. Qed.

(* after any history of write_pol, read_pol gives the last name that was one of the twelve *)
Theorem C57_polarization_names v names : read_pol (fold_left write_pol names v) =
  match filter (fun n => if in_dec string_dec n ["I"; "Q"; "U"; "V"; "rr"; "ll"; "rl"; "lr"; "xx"; "yy"; "xy"; "yx"]%string then true else false) names with
  | [] => read_pol v
  | l => Val (last l EmptyString)
  end.
Proof.
  rewrite write_read_pol. assert (E : forall n, existsb (String.eqb n) (map fst str2pol) =
    if in_dec string_dec n ["I"; "Q"; "U"; "V"; "rr"; "ll"; "rl"; "lr"; "xx"; "yy"; "xy"; "yx"]%string then true else false).
  { intros n. destruct (in_dec _ _ _) as [I|N].
    - apply existsb_exists. exists n. split; [exact I|apply String.eqb_refl].
    - destruct (existsb _ _) eqn:X; auto. apply existsb_exists in X. destruct X as [y [I Y]]. apply String.eqb_eq in Y. subst. contradiction. }
  rewrite (filter_ext _ _ E). reflexivity.
Qed.
Example C57_names_met : read_pol (fold_left write_pol ["xx"; "zz"; "yx"; "X"]%string None) = Val "yx"%string /\
  (exists k, write_pol None "rl" = Some k /\ k = (-3)%Z).
Proof. split; [reflexivity|eexists; split; reflexivity]. Qed.
(* a name that is none of the twelve is printed and otherwise ignored: the previous polarization stays in effect *)
Theorem C57_unknown_name_refuted : ~ (forall v n, exists k, write_pol v n = Some k /\ read_pol (write_pol v n) = Val n).
Proof. intros H. destruct (H (Some (-5)%Z) "XX"%string) as [k [_ E]]. discriminate. Qed.

Print Assumptions C57_update.
Print Assumptions C57_active_pol.
Print Assumptions C57_linear_passband.
Print Assumptions C57_passband_exchanged.
Print Assumptions C57_linear_offset.
Print Assumptions C57_offset_closure.
Print Assumptions C57_stokes_offset.
Print Assumptions C57_v_offset_refuted.
Print Assumptions C57_i_offset_refuted.
Print Assumptions C57_stokes_passband_refuted.
Print Assumptions C57_responses.
Print Assumptions C57_parallactic_angle.
Print Assumptions C57_parallactic_meridian.
Print Assumptions C57_polarization_names.
Print Assumptions C57_unknown_name_refuted.
