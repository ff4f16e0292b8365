(* C72: scripts/filter_src.py. *)
From Coq Require Import Reals Lra.
From Verif Require Import Base BaselineModel CleanModel CleanSpec CleanProps CmdModel GridModel GridSpec GridProofs GridProofs2 ImgModel ImgSpec ImgProofs ImgProofs2 GeoModel SkyModel SkySpec SkyProofs FsrModel FsrSpec FsrProofs FsrProofs2.
Ltac Zify.zify_post_hook ::= idtac.
Open Scope R_scope.
Local Notation length := List.length.
Add Ring Cring4 : c_ring.

(* aipy.deconv.clean with the script's tolerance *)
Definition clean (tol : R) (n : nat) (ker image m r : nat -> R * R) : Prop :=
  exists t it ok, clean1c n ker (1 / 10) tol 10000 true false (S (Z.to_nat 10000)) image None None = Some (m, r, t, it, ok).

Lemma found_of tol n f d x : (0 < n)%nat -> length f = n -> length d = n -> cleaned tol n f d x -> delays_found (clean tol n) n f d x.
Proof.
  intros N LF LD [[A B]|(m & r & CL & G & X)]; [left; intros k K; split; [apply A, K|apply B, K]|right].
  exists (at_ (ifft (map (fun x => (x, 0)) (weights f)))), (at_ (ifft (hidden f d))), m, r.
  assert (RW : root_mean (weights f) = share f) by apply root_mean_weights.
  split; [|split; [exact CL|split; [rewrite <- RW; exact G|]]].
  - intros k K. assert (RS : map (fun x : R => (x, 0)) (weights f) = response f) by (unfold weights, response; rewrite map_map; apply map_ext; intros []; reflexivity).
    rewrite RS. split; symmetry; apply component_ifft; [unfold response; rewrite map_length; lia|]. change (unflagged f d) with (hidden f d). rewrite (hidden_length n) by assumption. exact K.
  - intros k K. rewrite X by exact K. rewrite RW, cscale_mul. reflexivity.
Qed.
Lemma null_length {A} (z : A) lo hi l : length (null z lo hi l) = length l.
Proof. unfold null. rewrite map_length, combine_length, seq_length. lia. Qed.
Lemma null_nth {A} (z d : A) lo hi l k : (k < length l)%nat -> nth k (null z lo hi l) d = if nulled (length l) lo hi k then z else nth k l d.
Proof.
  intros K. unfold null. rewrite (combine_nth_map _ 0%nat d) by (rewrite ?seq_length; auto). cbn [fst snd]. rewrite seq_nth by exact K. reflexivity.
Qed.
(* the bins left by d[:, y1:y2] = 0 *)
Lemma near_nulled n dw k : (0 <= dw)%Z -> (k < n)%nat -> nulled n dw (if Z.eqb (- dw) 0 then Z.of_nat n else (- dw)%Z) k = true <-> ~ near n dw k.
Proof.
  intros D K. unfold nulled, near, py_index. rewrite Bool.andb_true_iff, Nat.leb_le, Nat.ltb_lt. destruct (Z.ltb_spec dw 0); [lia|]. destruct (Z.eqb_spec (- dw) 0).
  - destruct (Z.ltb_spec (Z.of_nat n) 0); lia.
  - destruct (Z.ltb_spec (- dw) 0); lia.
Qed.
Lemma cdiv_back z w : w <> (0, 0) -> cmul (cdiv z w) w = z.
Proof.
  intros W. destruct z as [a b], w as [u v]. assert (D : u * u + v * v <> 0).
  { intros E. apply W. destruct (Rplus_sqr_eq_0 u v) as [-> ->]; [exact E|reflexivity]. }
  unfold cdiv, cmul, cinverse, cnorm2. cbn [fst snd]. f_equal; field; exact D.
Qed.
Lemma toward_back n ph s : length ph = n -> length s = n -> (forall z, In z ph -> z <> (0, 0)) ->
  toward ph (map (fun p => cdiv (fst p) (snd p)) (combine s ph)) = s.
Proof.
  intros LP LS NZ. set (q := map (fun p => cdiv (fst p) (snd p)) (combine s ph) : list (R * R)). assert (LQ : @length (R * R) q = n) by (unfold q; rewrite map_length, combine_length; lia).
  apply (nth_list_eq (0, 0)); [rewrite (toward_length n) by assumption; congruence|]. rewrite (toward_length n) by assumption. intros k K.
  unfold toward. rewrite (combine_nth_map _ (0, 0) (0, 0)) by lia. cbn [fst snd]. change times with cmul. unfold q. rewrite (combine_nth_map _ (0, 0) (0, 0)) by lia. cbn [fst snd].
  apply cdiv_back, NZ, nth_In. lia.
Qed.
Lemma part_of n (P : nat -> Prop) lim ph x : (0 < n)%nat -> length ph = n -> length x = n -> (forall z, In z ph -> z <> (0, 0)) ->
  (forall k, (k < n)%nat -> nulled n (fst lim) (snd lim) k = true <-> ~ P k) ->
  part n P (at_ x) ph (map (fun p => cdiv (fst p) (snd p)) (combine (kept_only lim x) ph)).
Proof.
  intros N LP LX NZ HP. assert (LK : length (kept_only lim x) = n) by (unfold kept_only; rewrite fft_length, null_length; exact LX).
  assert (LU : length (null (0, 0) (fst lim) (snd lim) x) = n) by (rewrite null_length; exact LX). split; [rewrite map_length, combine_length; lia|]. intros k K.
  rewrite (toward_back n) by assumption. rewrite component_ifft by lia. unfold kept_only. rewrite ifft_fft by lia. rewrite null_nth by lia. rewrite LX. specialize (HP k K).
  destruct (nulled n (fst lim) (snd lim) k) eqn:E.
  - split; [intros Q; exfalso; apply HP; auto|reflexivity].
  - split; [reflexivity|]. intros Q. apply HP in Q. congruence.
Qed.
Lemma answer_ok src extract n r x e : sized n r -> length e = n ->
  (let '(t, i, j, p, _, _) := r in match src with None => Ok x | Some g => match g t p i j with None => Ok (map (fun _ => (0, 0)) x) | Some ph => bcast cdiv x ph end end) = Ok e ->
  exists r', answer src false extract r x = Ok r' /\ written extract n e r r'.
Proof.
  destruct r as [[[[[t i] j] p] d] f]. intros (L1 & L2) LE E. cbn [data flags] in *. unfold answer. rewrite E. cbn [bind].
  replace (Nat.eqb (@length (R * R) e) (length d)) with true by (symmetry; apply Nat.eqb_eq; congruence). replace (Nat.eqb (length f) (length d)) with true by (symmetry; apply Nat.eqb_eq; congruence). cbn [negb andb].
  destruct extract.
  - eexists. split; [reflexivity|]. split; [reflexivity|]. split; [exact LE|]. reflexivity.
  - rewrite bcast_same by (etransitivity; [exact L1|symmetry; exact LE]). cbn [bind]. set (y := map (fun p => csub (fst p) (snd p)) (combine d e) : list (R * R)). assert (LY : @length (R * R) y = n) by (unfold y; rewrite map_length, combine_length; lia).
    assert (LC : length (combine d y) = n) by (rewrite combine_length; lia). rewrite bcast_same by (etransitivity; [exact L2|symmetry; exact LC]). cbn [bind]. eexists. split; [reflexivity|]. split; [reflexivity|]. cbn [data flags value].
    split; [rewrite map_length, combine_length; transitivity (Nat.min n n); [f_equal; [exact L2|exact LC]|lia]|]. intros c K. unfold value. cbn [data]. rewrite (combine_nth_map _ false ((0, 0), (0, 0))); [|exact (eq_trans L2 (eq_sym LC))|lia]. cbn [fst snd]. destruct (nth c f false).
    + rewrite combine_nth by exact (eq_trans L1 (eq_sym LY)). reflexivity.
    + rewrite combine_nth by exact (eq_trans L1 (eq_sym LY)). cbn [snd]. unfold y. rewrite (combine_nth_map _ (0, 0) (0, 0)) by lia. reflexivity.
Qed.
Lemma cross_iff v : is_auto v = false <-> ~ auto v.
Proof. destruct v as [[[[[t i] j] p] d] f]. cbn. destruct (Z.eqb_spec i j); split; congruence. Qed.

Lemma run_plain src pols dw extract tol filters padlen n lims (P : Z * Z -> nat -> Prop) rs : (0 < n)%nat -> (forall a, (padlen a <= a)%nat) -> Forall (fit src pols n) rs ->
  (forall r, In r rs -> ~ auto r -> limits src dw filters n (place r) = Ok (lims (place r)) /\ forall k, (k < n)%nat -> nulled n (fst (lims (place r))) (snd (lims (place r))) k = true <-> ~ P (place r) k) ->
  exists out, run src pols (-1) dw false extract tol filters padlen rs = (out, true) /\ Forall2 (fun r => filtered (clean tol n) src extract n (P (place r)) r) rs out.
Proof.
  intros N PA F LI. destruct (gather_ok src pols tol n rs N F [] false) as (dat & E & G). pose proof (gather_nodup src pols tol false rs [] false _ _ (NoDup_nil _) E) as ND.
  set (up := existsb (fun v => (negb (is_auto v) && sky src v)%bool) rs) in *. cbn [orb] in E.
  assert (GK : forall k, get dat k = match map (xof src tol n) (filter (mine k) rs) with [] => None | l => Some l end).
  { intros k. rewrite G. cbn [get app]. destruct (map (xof src tol n) (filter (mine k) rs)); reflexivity. }
  assert (BL : forall k rows, get dat k = Some rows -> block src (-1) dw tol filters padlen up (k, rows) = Ok (k, if up then map (kept_only (lims k)) rows else rows)).
  { intros k rows HG. rewrite GK in HG. destruct (filter (mine k) rs) as [|v l] eqn:EF; [discriminate|]. cbn [map] in HG. injection HG as <-.
    assert (I : In v (filter (mine k) rs)) by (rewrite EF; left; reflexivity). apply filter_In in I as [I M]. unfold mine in M. apply andb_prop in M as [M1 M2]. destruct (key_eqb_spec (place v) k) as [<-|]; [|discriminate].
    apply (block_plain src (-1) dw tol filters padlen n); auto; [discriminate| |].
    - intros q Q. change (xof src tol n v :: map (xof src tol n) l) with (map (xof src tol n) (v :: l)) in Q. rewrite <- EF in Q. apply in_map_iff in Q as (w & <- & W). apply filter_In in W as [W _]. apply (xof_length src pols); [exact N|]. eapply Forall_forall; eauto.
    - apply LI; [exact I|]. apply cross_iff. destruct (is_auto v); [discriminate|reflexivity]. }
  destruct (mapres_get (block src (-1) dw tol filters padlen up) dat) as (dat' & E2 & G2).
  { intros [k rows] I. eexists. apply BL. apply get_in; assumption. }
  unfold run. rewrite E. cbn [bind fst snd]. rewrite E2.
  apply (emit_ok src extract _ dat' rs) with (pre := []); [| |reflexivity|reflexivity].
  - intros v I A. split; [reflexivity|]. intros H. apply cross_iff in H. congruence.
  - intros pre v post -> A. assert (I : In v (pre ++ v :: post)) by (apply in_or_app; right; left; reflexivity). assert (M : mine (place v) v = true) by (unfold mine; rewrite A, key_eqb_refl; reflexivity).
    pose proof (proj1 (Forall_forall _ _) F v I) as FV. pose proof (proj1 (cross_iff v) A) as NA. destruct (LI v I NA) as [_ LN].
    assert (NE : map (xof src tol n) (filter (mine (place v)) (pre ++ v :: post)) <> []).
    { intros H. pose proof (own_row (xof src tol n) (place v) pre v post M) as Q. rewrite H in Q. destruct (length (filter (mine (place v)) pre)); discriminate. }
    assert (HG : get dat (place v) = Some (map (xof src tol n) (filter (mine (place v)) (pre ++ v :: post)))) by (rewrite GK; revert NE; destruct (map (xof src tol n) (filter (mine (place v)) (pre ++ v :: post))); intros NE; [exfalso; apply NE|]; reflexivity).
    destruct (G2 _ _ HG) as (y & EB & GY). rewrite (BL _ _ HG) in EB. injection EB as EB. set (row := if up then kept_only (lims (place v)) (xof src tol n v) else xof src tol n v).
    pose proof (xof_length src pols tol n v N FV) as LX. assert (LR : length row = n) by (unfold row; destruct up; [unfold kept_only; rewrite fft_length, null_length|]; exact LX).
    assert (NR : nth_error y (length (filter (mine (place v)) pre)) = Some row).
    { subst y. unfold row. destruct up; [rewrite map_map; exact (own_row (fun w => kept_only (lims (place v)) (xof src tol n w)) (place v) pre v post M)|exact (own_row (xof src tol n) (place v) pre v post M)]. }
    pose proof FV as ((L1 & L2) & _ & PH). pose proof (phased_ok src pols n v FV) as PO.
    destruct (phases src n v) as [ph|] eqn:EP.
    + destruct (PH ph eq_refl) as [LP NZ].
      assert (UP : up = true). { apply existsb_exists. exists v. split; [exact I|]. rewrite A. unfold sky. rewrite PO. reflexivity. }
      assert (RW : row = kept_only (lims (place v)) (xof src tol n v)) by (unfold row; rewrite UP; reflexivity).
      set (e := map (fun p => cdiv (fst p) (snd p)) (combine row ph) : list (R * R)).
      destruct (answer_ok src extract n v row e) as (r' & EA & WR); [split; assumption|unfold e; rewrite map_length, combine_length; lia| |].
      { destruct v as [[[[[t i] j] p] d] f]. unfold phases in EP. destruct src as [g|].
        - rewrite EP. rewrite bcast_same by congruence. reflexivity.
        - injection EP as <-. f_equal. unfold e. apply (nth_list_eq (0, 0)); [rewrite map_length, combine_length; lia|]. intros k K. rewrite (combine_nth_map _ (0, 0) (0, 0)) by lia. cbn [fst snd].
          rewrite nth_repeat_lt by lia. destruct (nth k row (0, 0)) as [a b]. unfold cdiv, cmul, cinverse, cnorm2. cbn [fst snd]. f_equal; field. }
      exists y, row, r'. split; [exact GY|]. split; [exact NR|]. split; [exact EA|]. split; [intros H; contradiction|]. intros _. rewrite EP. exists (at_ (xof src tol n v)), e.
      destruct (delays_ok tol n (flags v) (toward ph (data v)) N L2 (toward_length n _ _ LP L1)) as (x & EX & LX2 & CX).
      assert (XO : xof src tol n v = x) by (unfold xof; rewrite PO, EX; reflexivity).
      split; [|split; [|exact WR]].
      * rewrite XO. apply found_of; auto. apply toward_length; assumption.
      * unfold e. rewrite RW. apply part_of; auto.
    + destruct (answer_ok src extract n v row (repeat (0, 0) n)) as (r' & EA & WR); [split; assumption|apply repeat_length| |].
      { destruct v as [[[[[t i] j] p] d] f]. unfold phases in EP. destruct src as [g|]; [|discriminate]. rewrite EP. f_equal. rewrite <- LR. clear. induction row as [|z l IH]; cbn; congruence. }
      exists y, row, r'. split; [exact GY|]. split; [exact NR|]. split; [exact EA|]. split; [intros H; contradiction|]. intros _. rewrite EP. exact WR.
Qed.
(* without a delay-rate filter: every record is written, and from a cross-correlation the delays from -dw up to dw
   are taken, in what the source phases make of it *)
Theorem C72_delay src pols dw extract tol filters padlen n rs : (0 < n)%nat -> (0 <= dw)%Z -> (forall a, (padlen a <= a)%nat) -> Forall (fit src pols n) rs ->
  exists out, run src pols (-1) dw false extract tol filters padlen rs = (out, true) /\ Forall2 (filtered (clean tol n) src extract n (near n dw)) rs out.
Proof.
  intros N D PA F. apply (run_plain src pols dw extract tol filters padlen n (fun _ => (dw, if Z.eqb (- dw) 0 then Z.of_nat n else (- dw)%Z)) (fun _ => near n dw)); auto.
  intros r _ _. split.
  - unfold limits. destruct (Z.eqb_spec dw (-1)); [lia|reflexivity].
  - cbn [fst snd]. intros k K. apply near_nulled; assumption.
Qed.
Print Assumptions C72_delay.

(* ---------- a record without flags ---------- *)
Lemma found_unflagged tol n f s x : (0 < n)%nat -> length f = n -> length s = n -> (forall c, (c < n)%nat -> nth c f false = false) -> delays_found (clean tol n) n f s x -> forall k, (k < n)%nat -> x k = component s k.
Proof.
  intros N LF LS NF H. assert (F : f = repeat false n).
  { apply (nth_list_eq false); [rewrite repeat_length; exact LF|]. rewrite LF. intros k K. rewrite NF, nth_repeat_lt by exact K. reflexivity. }
  assert (U : unflagged f s = s).
  { apply (nth_list_eq (0, 0)); [unfold unflagged; rewrite map_length, combine_length; lia|]. unfold unflagged. rewrite map_length, combine_length. intros k K. rewrite (combine_nth_map _ false (0, 0)) by lia. cbn [fst snd]. rewrite NF by lia. reflexivity. }
  assert (SH : share f = 1).
  { unfold share. rewrite F. replace (filter negb (repeat false n)) with (repeat false n) by (clear; induction n; cbn; congruence). rewrite repeat_length. replace (INR n / INR n) with 1 by (field; apply not_0_INR; lia). apply sqrt_1. }
  unfold delays_found in H. rewrite U in H. intros k K. destruct H as [H|(ker & image & m & r & KI & CL & _ & X)]; [destruct (H k K) as [-> ->]; reflexivity|]. rewrite X by exact K. rewrite SH. destruct (KI k K) as [_ <-].
  rewrite (cleaning_delta tol n ker image m r N); [| |exact CL|exact K].
  - replace (/ 1) with 1 by field. change plus with cadd. change times with cmul. cr.
  - intros j J. destruct (KI j J) as [-> _]. assert (RS : response f = map (fun x => (x, 0)) (repeat 1 n)) by (rewrite F; unfold response; clear; induction n; cbn; congruence).
    rewrite component_ifft by (unfold response; rewrite map_length; lia). rewrite RS. apply ifft_ones. exact J.
Qed.
Lemma component_toward ph s k : length ph = length s -> component (toward ph s) k =
  times (/ INR (length s), 0) (csum (seq 0 (length s)) (fun x => times (times (nth x s (0, 0)) (nth x ph (0, 0))) (circle (INR x * INR k / INR (length s))))).
Proof.
  intros L. unfold component. rewrite sum_csum. rewrite (toward_length (length s)) by auto. f_equal. apply csum_ext. intros x I. apply in_seq in I. unfold toward. rewrite (combine_nth_map _ (0, 0) (0, 0)) by lia. reflexivity.
Qed.
Theorem C72_unflagged src pols dw extract tol filters padlen n rs : (0 < n)%nat -> (0 <= dw)%Z -> (forall a, (padlen a <= a)%nat) -> Forall (fit src pols n) rs ->
  exists out, run src pols (-1) dw false extract tol filters padlen rs = (out, true) /\
  Forall2 (fun r r' => ~ auto r -> (forall c, (c < n)%nat -> nth c (flags r) false = false) -> forall ph, phases src n r = Some ph ->
    forall k, (k < n)%nat -> if extract
      then (near n dw k -> component (toward ph (data r')) k = component (toward ph (data r)) k) /\ (~ near n dw k -> component (toward ph (data r')) k = (0, 0))
      else (near n dw k -> component (toward ph (data r')) k = (0, 0)) /\ (~ near n dw k -> component (toward ph (data r')) k = component (toward ph (data r)) k)) rs out.
Proof.
  intros N D PA F. destruct (C72_delay src pols dw extract tol filters padlen n rs N D PA F) as (out & E & F2). exists out. split; [exact E|].
  clear E. revert F. induction F2 as [|r r' rs out H _ IH]; intros F; constructor; [|inversion F; auto]. inversion F as [|? ? FR FS]; subst. clear IH. destruct FR as ((L1 & L2) & _ & PH).
  intros NA NF ph EP k K. destruct (PH ph EP) as [LP _]. destruct H as [_ H]. specialize (H NA). rewrite EP in H. destruct H as (x & e & FO & (LE & PT) & (SP & LD & W)).
  pose proof (found_unflagged tol n _ _ x N L2 (toward_length n _ _ LP L1) NF FO k K) as X. specialize (PT k K). rewrite X in PT. destruct extract.
  - assert (ED : data r' = e). { apply (nth_list_eq (0, 0)); [congruence|]. intros c C1. apply W. lia. } rewrite ED. exact PT.
  - assert (CM : component (toward ph (data r')) k = minus (component (toward ph (data r)) k) (component (toward ph e) k)).
    { rewrite !component_toward by congruence. rewrite LD, L1, LE. rewrite (csum_ext _ _ (fun x => csub (times (times (nth x (data r) (0, 0)) (nth x ph (0, 0))) (circle (INR x * INR k / INR n))) (times (times (nth x e (0, 0)) (nth x ph (0, 0))) (circle (INR x * INR k / INR n))))).
      - rewrite (csum_ext _ (fun x => csub _ _) (fun x => cadd (times (times (nth x (data r) (0, 0)) (nth x ph (0, 0))) (circle (INR x * INR k / INR n))) (cmul (-1, 0) (times (times (nth x e (0, 0)) (nth x ph (0, 0))) (circle (INR x * INR k / INR n)))))).
        + rewrite csum_add, csum_mul_l. generalize (csum (seq 0 n) (fun x => times (times (nth x (data r) (0, 0)) (nth x ph (0, 0))) (circle (INR x * INR k / INR n)))). generalize (csum (seq 0 n) (fun x => times (times (nth x e (0, 0)) (nth x ph (0, 0))) (circle (INR x * INR k / INR n)))).
          intros [a b] [c d]. unfold times, minus, cadd, cmul. cbn [fst snd]. f_equal; ring.
        + intros c _. generalize (times (times (nth c (data r) (0, 0)) (nth c ph (0, 0))) (circle (INR c * INR k / INR n))) (times (times (nth c e (0, 0)) (nth c ph (0, 0))) (circle (INR c * INR k / INR n))).
          intros [a b] [u v]. unfold csub, cadd, cmul. cbn [fst snd]. f_equal; ring.
      - intros c I. apply in_seq in I. fold (value r' c). rewrite W by lia. rewrite NF by lia. fold (value r c). generalize (value r c) (nth c e (0, 0)) (nth c ph (0, 0)) (circle (INR c * INR k / INR n)).
        intros [a b] [u v] [p q] [s t]. unfold csub, times, minus. cbn [fst snd]. f_equal; ring. }
    rewrite CM. destruct PT as [P1 P2]. split; intros Q; [rewrite P1 by exact Q|rewrite P2 by exact Q]; destruct (component (toward ph (data r)) k) as [a b]; unfold minus; cbn [fst snd]; f_equal; ring.
Qed.
Print Assumptions C72_unflagged.
