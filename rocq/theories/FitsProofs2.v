From Coq Require Import Ascii String.
From Verif Require Import Base ScriptModel ImgModel FitsModel FitsSpec FitsProofs.
Local Open Scope Z_scope.
Local Notation length := List.length.

Lemma begins_first p q c d r s l : list_ascii_of_string p = c :: r -> list_ascii_of_string q = d :: s -> c <> d -> begins p l = true -> begins q l = false.
Proof.
  unfold begins, lit. intros -> -> N H. destruct l as [|x l]; [discriminate|]. cbn in *. unfold ceqb in *.
  destruct (Ascii.eqb_spec c x) as [->|]; [|discriminate]. destruct (Ascii.eqb_spec d x); [congruence|reflexivity].
Qed.
Lemma begins_dec_glat p q l : (p = "dec" /\ In q ["ra"; "glon"; "glat"; "freq"] \/ p = "freq" /\ In q ["ra"; "glon"; "dec"; "glat"]
   \/ p = "ra" /\ In q ["dec"; "freq"; "glon"; "glat"] \/ p = "glon" /\ In q ["ra"; "dec"; "freq"] \/ p = "glat" /\ In q ["ra"; "dec"; "freq"])%string ->
  begins p l = true -> begins q l = false.
Proof.
  intros H. destruct H as [[-> H]|[[-> H]|[[-> H]|[[-> H]|[-> H]]]]];
    repeat (destruct H as [<-|H]; [eapply begins_first; [reflexivity|reflexivity|discriminate]|]); destruct H.
Qed.

Lemma squeeze_spec sh r : squeezed sh r <-> r = squeeze sh.
Proof.
  split.
  - induction 1; cbn; [reflexivity|exact IHsqueezed|]. destruct (Nat.eqb_spec n 1); [contradiction|]. cbn. f_equal. assumption.
  - intros ->. induction sh as [|n sh IH]; cbn; [constructor|]. destruct (Nat.eqb_spec n 1) as [->|N]; cbn; constructor; assumption.
Qed.
Lemma squeeze_squeeze sh : squeeze (squeeze sh) = squeeze sh.
Proof.
  induction sh as [|n r IH]; [reflexivity|]. cbn. destruct (Nat.eqb n 1) eqn:E; cbn; [exact IH|]. rewrite E. cbn. f_equal. exact IH.
Qed.

Section P.
Variable V : Type.
Variables (zero one : V) (of_nat : nat -> V) (add mul : V -> V -> V) (opp : V -> V) (pos finite : V -> bool) (veqb : V -> V -> bool).
Variables amax amin : list V -> V.
Variable reread : V -> V.
Variable drops : bool.
Notation hget := (hget V). Notation kget := (kget V). Notation kset := (kset V).
Notation store := (store V reread). Notation sets := (sets V finite). Notation legal := (legal V finite).
Notation all_cards := (all_cards V zero one of_nat opp pos amax amin).
Notation axis_cards := (axis_cards V zero one of_nat opp pos).
Notation axis_vd := (axis_vd V zero one opp pos).
Notation lastv := (lastv V).
Notation to_fits := (to_fits V zero one of_nat opp pos finite amax amin reread drops).
Notation from_fits := (from_fits V zero one add mul veqb).
Notation leftward := (leftward V opp pos).

Definition kept (k : key) : bool := negb (is_naxis k) && negb (drops && is_scale k).
Definition written (a : args V) (sh : list nat) (pix : list V) (hist : list str) (u : hdu V) : Prop :=
  u_shape V u = sh /\ u_pix V u = pix /\ u_hist V u = map rtrim hist /\
  forall k, hget (u_cards V u) k = if kept k then option_map store (lastv (all_cards a sh pix) k) else None.
Lemma to_fits_inv f name sh pix cl a f' : to_fits f name sh pix cl a = Ok f' ->
  length (squeeze sh) = length (a_axes V a) /\ squeeze sh <> [] /\ pix <> [] /\ is_ok (sets [] (all_cards a (squeeze sh) pix)) = true /\
  exists hist u, history_cards 1 (a_history V a) = Ok hist /\ written a (squeeze sh) pix hist u /\ f' = fun n => if streq n name then Some u else f n.
Proof.
  unfold FitsModel.to_fits. destruct (Nat.eqb_spec (length (squeeze sh)) (length (a_axes V a))) as [E|]; [|discriminate]. cbn [negb].
  destruct pix as [|p0 pix0] eqn:EP; [discriminate|]. rewrite <- EP. destruct (sets [] (all_cards a (squeeze sh) pix)) as [h|] eqn:S; [|discriminate].
  cbn [bind]. destruct (history_cards 1 (a_history V a)) as [hist|] eqn:Hh; [|discriminate]. cbn [bind]. unfold writeto.
  destruct (squeeze sh) as [|n r] eqn:Q; [discriminate|]. rewrite <- Q in *. cbn [negb andb]. intros [= <-].
  split; [exact E|]. split; [rewrite Q; discriminate|]. split; [subst; discriminate|]. split; [reflexivity|].
  exists hist. eexists. split; [reflexivity|]. split; [|reflexivity]. split; [reflexivity|]. split; [reflexivity|]. split; [reflexivity|].
  intros k. cbn [u_cards]. rewrite hget_store.
  rewrite (hget_filter V (fun k => negb (is_naxis k) && negb (drops && is_scale k)) h k). fold (kept k).
  destruct (kept k); [|reflexivity]. rewrite (sets_get _ _ _ _ _ S). destruct (lastv _ k); reflexivity.
Qed.
Lemma to_fits_ok f name sh pix cl a : is_ok (to_fits f name sh pix cl a) =
  (length (squeeze sh) =? length (a_axes V a))%nat && negb (match squeeze sh with [] => true | _ => false end) && negb (match pix with [] => true | _ => false end)
  && forallb (fun p => legal (snd p)) (all_cards a (squeeze sh) pix) && is_ok (history_cards 1 (a_history V a)).
Proof.
  unfold FitsModel.to_fits. destruct (Nat.eqb (length (squeeze sh)) (length (a_axes V a))); [|reflexivity]. cbn [negb andb].
  destruct pix as [|p0 pix0] eqn:EP; [rewrite andb_false_r; reflexivity|]. rewrite <- EP. cbn [negb]. rewrite andb_true_r.
  rewrite <- (sets_ok V finite (all_cards a (squeeze sh) pix) []).
  destruct (sets [] (all_cards a (squeeze sh) pix)) as [h|]; cbn [bind is_ok]; [|rewrite andb_false_r; reflexivity]. rewrite andb_true_r.
  destruct (history_cards 1 (a_history V a)) as [hist|]; cbn [bind is_ok]; [|rewrite andb_false_r; reflexivity]. unfold writeto.
  destruct (squeeze sh); reflexivity.
Qed.
Lemma hget_hdel h k q : hget (hdel V h k) q = if keqb q k then None else hget h q.
Proof.
  unfold hdel. rewrite (hget_filter V (fun q => negb (keqb q k))). destruct (keqb q k); reflexivity.
Qed.
Lemma open_get u k : is_scale k = false -> hget (open_cards V zero one veqb u) k = hget (u_cards V u) k.
Proof.
  intros H. unfold open_cards. destruct (scaled V zero one veqb (u_cards V u)); [|reflexivity]. rewrite !hget_hdel.
  destruct (keqb k (K "BZERO")) eqn:E1; [apply keqb_spec in E1; subst k; discriminate|].
  destruct (keqb k (K "BSCALE")) eqn:E2; [apply keqb_spec in E2; subst k; discriminate|]. reflexivity.
Qed.
Lemma all_K a sh pix n : lastv (all_cards a sh pix) (K n) =
  lastv ([(K "TRANSPOS", VN V zero); (K "OBJECT", a_object V a); (K "TELESCOP", a_telescope V a); (K "INSTRUME", a_instrument V a);
   (K "OBSERVER", a_observer V a); (K "DATE-OBS", a_obs_date V a); (K "BSCALE", a_bscale V a); (K "BZERO", a_bzero V a);
   (K "BUNIT", VS V (lit "JY/BEAM ")); (K "EQUINOX", a_epoch V a); (K "EPOCH", a_epoch V a);
   (K "DATAMAX", VN V (amax pix)); (K "DATAMIN", VN V (amin pix)); (K "ORIGIN", a_origin V a); (K "DATE", a_cur_date V a)]) (K n).
Proof.
  unfold FitsModel.all_cards. rewrite !lastv_app, axes_K.
  change ([?a;?b;?c;?d;?e;?f;?g;?h;?i;?j;?k;?l;?m;?n;?o]) with ([a;b;c;d;e;f;g;h;i;j;k;l;m] ++ [n;o]). rewrite lastv_app.
  destruct (lastv [_; _] (K n)); reflexivity.
Qed.

(* ---- the axes, read back ---- *)
Definition low (ax : str) : str := lower (rtrim (upper ax)).
Lemma low_alt ax : low ax = rtrim (lower ax).
Proof. unfold low. rewrite <- rtrim_lower, lower_upper. reflexivity. Qed.
Lemma begins_low p ax : In p ["ra"; "dec"; "freq"]%string -> begins p (low ax) = begins p (lower ax).
Proof.
  intros H. rewrite low_alt. unfold begins. repeat (destruct H as [<-|H]); try destruct H; apply starts_rtrim; try discriminate;
    intros u K; change [" "%char] with (rev [" "%char]) in K;
    apply (f_equal (@rev ascii)) in K; rewrite rev_app_distr in K; discriminate.
Qed.
Definition axis_step (a : args V) (d : kwds V) (ax : str) : kwds V :=
  if begins "ra" (lower ax) then kset (kset d "ra" (Val V (VN V (reread (a_ra V a))))) "d_ra" (Val V (VN V (reread (leftward (a_d_ra V a)))))
  else if begins "dec" (lower ax) then kset (kset d "dec" (Val V (VN V (reread (a_dec V a))))) "d_dec" (Val V (VN V (reread (a_d_dec V a))))
  else if begins "freq" (lower ax) then kset (kset d "freq" (Val V (VN V (reread (a_freq V a))))) "d_freq" (Val V (VN V (reread (a_d_freq V a))))
  else d.
Definition good_axis (a : args V) (h : header V) (i : nat) (ax : str) : Prop :=
  hget h (KI "CTYPE" (i + 1)) = Some (VS V (rtrim (upper ax))) /\ hget h (KI "CRVAL" (i + 1)) = Some (VN V (reread (fst (axis_vd a ax)))) /\
  hget h (KI "CDELT" (i + 1)) = Some (VN V (reread (snd (axis_vd a ax)))).
Lemma axis_kwds_step a h i ax d l : good_axis a h i ax -> axis_kwds V h i (d, l) = Ok (axis_step a d ax, l ++ [low ax]).
Proof.
  intros [E1 [E2 E3]]. unfold axis_kwds. rewrite E1, E2, E3. fold (low ax). rewrite !begins_low by (cbn; auto).
  unfold axis_step, FitsProofs.axis_vd, FitsSpec.leftward.
  destruct (begins "ra" (lower ax)) eqn:B1; cbn [orb andb fst snd]; [reflexivity|].
  destruct (begins "dec" (lower ax)) eqn:B2.
  { rewrite (begins_dec_glat "dec" "glon" _) by (cbn; auto 10). reflexivity. }
  destruct (begins "freq" (lower ax)) eqn:B3; [|reflexivity].
  rewrite (begins_dec_glat "freq" "glon" _), (begins_dec_glat "freq" "glat" _) by (cbn; auto 10). reflexivity.
Qed.
Lemma axes_kwds_fold a h : forall r j d l, (forall i ax, nth_error r i = Some ax -> good_axis a h (j + i) ax) ->
  axes_kwds V h (seq j (length r)) (d, l) = Ok (fold_left (axis_step a) r d, l ++ map low r).
Proof.
  induction r as [|ax r IH]; intros j d l H; cbn [length seq axes_kwds]; [cbn; rewrite app_nil_r; reflexivity|].
  rewrite (axis_kwds_step a h j ax) by (specialize (H O ax eq_refl); rewrite Nat.add_0_r in H; exact H). cbn [bind].
  rewrite IH; [cbn; rewrite <- app_assoc; reflexivity|]. intros i x E. specialize (H (S i) x E). rewrite Nat.add_succ_r in H. exact H.
Qed.
Definition isax (p : string) (ax : str) : bool := begins p (lower ax).
Definition axis_item (a : args V) (r : list str) (q : string) : option (item V) :=
  if (String.eqb "ra" q && existsb (isax "ra") r)%bool then Some (Val V (VN V (reread (a_ra V a))))
  else if (String.eqb "d_ra" q && existsb (isax "ra") r)%bool then Some (Val V (VN V (reread (leftward (a_d_ra V a)))))
  else if (String.eqb "dec" q && existsb (isax "dec") r)%bool then Some (Val V (VN V (reread (a_dec V a))))
  else if (String.eqb "d_dec" q && existsb (isax "dec") r)%bool then Some (Val V (VN V (reread (a_d_dec V a))))
  else if (String.eqb "freq" q && existsb (isax "freq") r)%bool then Some (Val V (VN V (reread (a_freq V a))))
  else if (String.eqb "d_freq" q && existsb (isax "freq") r)%bool then Some (Val V (VN V (reread (a_d_freq V a))))
  else None.
Ltac six q := destruct (String.eqb_spec "ra" q); [subst q|]; [|destruct (String.eqb_spec "d_ra" q); [subst q|]; [|destruct (String.eqb_spec "dec" q); [subst q|]; [|
   destruct (String.eqb_spec "d_dec" q); [subst q|]; [|destruct (String.eqb_spec "freq" q); [subst q|]; [|destruct (String.eqb_spec "d_freq" q); [subst q|]]]]]].
Lemma fold_get a r : forall d q, kget (fold_left (axis_step a) r d) q = match axis_item a r q with Some v => Some v | None => kget d q end.
Proof.
  induction r as [|ax r IH]; intros d q; [unfold axis_item; cbn; rewrite !andb_false_r; reflexivity|]. cbn [fold_left]. rewrite IH.
  unfold axis_item, axis_step. cbn [existsb].
  change (isax "ra" ax) with (begins "ra" (lower ax)). change (isax "dec" ax) with (begins "dec" (lower ax)). change (isax "freq" ax) with (begins "freq" (lower ax)).
  destruct (begins "ra" (lower ax)) eqn:B1; [|destruct (begins "dec" (lower ax)) eqn:B2; [|destruct (begins "freq" (lower ax)) eqn:B3]].
  - rewrite (begins_dec_glat "ra" "dec" _), (begins_dec_glat "ra" "freq" _) by (cbn; auto 10). cbn [orb].
    rewrite !kset_get. six q; cbn [String.eqb Ascii.eqb Bool.eqb andb]; try reflexivity; try (destruct (existsb (isax "ra") r); reflexivity).
    all: repeat (destruct (String.eqb_spec _ q); [congruence|]); cbn; try reflexivity.
  - rewrite (begins_dec_glat "dec" "freq" _) by (cbn; auto 10). cbn [orb].
    rewrite !kset_get. six q; cbn; try reflexivity; try (destruct (existsb (isax "dec") r); reflexivity).
  - cbn [orb]. rewrite !kset_get. six q; cbn; try reflexivity; try (destruct (existsb (isax "freq") r); reflexivity).
  - reflexivity.
Qed.
End P.
