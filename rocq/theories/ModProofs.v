From Coq Require Import Reals Lra Permutation Ascii String.
From Verif Require Import Base ScriptModel CleanModel CleanSpec CleanProofs HpxModel HpxSpec HpxProofs HpxProofs2 HpxProofs3 FitsModel MapfModel ModModel ModSpec.
Local Open Scope Z_scope.
Local Notation length := List.length.
Ltac Zify.zify_post_hook ::= idtac.

Lemma px_set m p v q : 0 <= p < lenZ m -> 0 <= q -> px (np_set m (Z.to_nat p) v) q = if q =? p then v else px m q.
Proof.
  intros P Q. unfold px. rewrite np_set_nth by (unfold lenZ in P; lia). destruct (Z.eqb_spec q p) as [->|N]; [now rewrite Nat.eqb_refl|]. replace (Nat.eqb _ _) with false by lia. reflexivity.
Qed.
Definition zero_one (n : Z) (k : skymap) : Prop := forall p, 0 <= p < 12 * (n * n) -> px (h_map (k_wgt k)) p = 0%R \/ px (h_map (k_wgt k)) p = 1%R.
Definition last_index (p : Z) (srcs : list (list Z * R * R)) (d : R) : R := match rev (covering p srcs) with (_, _, i) :: _ => i | [] => d end.
Definition raw (n : Z) (s : scheme) (srcs : list (list Z * R * R)) (k k' : skymap) : Prop :=
  sky_of n s k' /\ zero_one n k' /\ length (k_ind k') = length (k_ind k) /\
  forall p, 0 <= p < 12 * (n * n) ->
    px (h_map (k_map k')) p = (px (h_map (k_map k)) p + received p srcs)%R /\
    px (h_map (k_wgt k')) p = match covering p srcs with [] => px (h_map (k_wgt k)) p | _ => 1%R end /\
    forall j h h', nth_error (k_ind k) j = Some h -> nth_error (k_ind k') j = Some h' ->
      px (h_map h') p = match j with O => last_index p srcs (px (h_map h) p) | S _ => px (h_map h) p end.
Lemma raw_nil n s k : sky_of n s k -> zero_one n k -> raw n s [] k k.
Proof.
  intros S Z. split; [exact S|]. split; [exact Z|]. split; [reflexivity|]. intros p P. split; [unfold received; cbn; ring|]. split; [reflexivity|].
  intros j h h' E E'. rewrite E in E'. injection E' as <-. destruct j; reflexivity.
Qed.
Lemma covering_app p a b : covering p (a ++ b) = covering p a ++ covering p b.
Proof. apply filter_app. Qed.
Lemma raw_app n s a b k k1 k2 : raw n s a k k1 -> raw n s b k1 k2 -> raw n s (a ++ b) k k2.
Proof.
  intros (S1 & Z1 & L1 & A) (S2 & Z2 & L2 & B). split; [exact S2|]. split; [exact Z2|]. split; [congruence|]. intros p P. destruct (A p P) as (A1 & A2 & A3), (B p P) as (B1 & B2 & B3).
  split; [rewrite B1, A1; unfold received; rewrite rsum_app; ring|]. split.
  - rewrite B2, A2, covering_app. destruct (covering p a), (covering p b); reflexivity.
  - intros j h h' E E'. destruct (nth_error (k_ind k1) j) as [h1|] eqn:E1; [|apply nth_error_None in E1; assert (nth_error (k_ind k) j <> None) as X by congruence; apply nth_error_Some in X; lia].
    rewrite (B3 j h1 h' E1 E'), (A3 j h h1 E E1). destruct j; [|reflexivity]. unfold last_index. rewrite covering_app, rev_app_distr. destruct (rev (covering p b)) as [|[[u v] w] r]; [|reflexivity]. cbn [app]. destruct (rev (covering p a)) as [|[[u v] w] r]; reflexivity.
Qed.
Lemma raw_same n s a b k k' : (forall p, 0 <= p < 12 * (n * n) -> received p a = received p b /\ (covering p a = [] <-> covering p b = []) /\ forall d, last_index p a d = last_index p b d) -> raw n s a k k' -> raw n s b k k'.
Proof.
  intros E (S1 & Z1 & L1 & A). split; [exact S1|]. split; [exact Z1|]. split; [exact L1|]. intros p P. destruct (A p P) as (A1 & A2 & A3), (E p P) as (E1 & E2 & E3). rewrite <- E1. split; [exact A1|]. split.
  - rewrite A2. destruct (covering p a), (covering p b); try reflexivity; [destruct E2 as [E2 _]; discriminate (E2 eq_refl)|destruct E2 as [_ E2]; discriminate (E2 eq_refl)].
  - intros j h h' F F'. rewrite (A3 j h h' F F'). destruct j; [apply E3|reflexivity].
Qed.

Section P.
Context {Dir : Type} (pixel : Z -> scheme -> Dir -> Z) (interp_weights : Z -> scheme -> Dir -> list (Z * R)).
Notation add_px := (add_px Dir pixel interp_weights).
Lemma set_one n s h p x : part_of n s h -> 0 <= p < 12 * (n * n) -> setitem Dir pixel h (Px _ [p]) (Arr [x]) = Ok (with_map h (np_set (h_map h) (Z.to_nat p) x)) /\ part_of n s (with_map h (np_set (h_map h) (Z.to_nat p) x)).
Proof.
  intros ((G & L) & N & S & I) P. split.
  - unfold setitem, pixels. rewrite np_index_pos by (rewrite L, N; exact P). reflexivity.
  - repeat split; auto. cbn [h_map with_map h_nside]. unfold lenZ in *. now rewrite np_set_length.
Qed.
Lemma add_px_raw n s nind each index k p : sky_of n s k -> zero_one n k -> 0 <= p < 12 * (n * n) -> (nind = O <-> k_ind k = []) ->
  exists k', add_px nind each index k p = Ok k' /\ raw n s [([p], each, index)] k k'.
Proof.
  intros S Z P NI. unfold ModModel.add_px. rewrite (map_get_px pixel interp_weights n s) by assumption. cbn [bind].
  assert (PO : pos_or_1 (px (h_map (k_wgt k)) p) = 1%R).
  { unfold pos_or_1. destruct (Z p P) as [-> | ->]; [destruct (Rltb 0 0) eqn:E; [apply Rltb_true in E; lra|reflexivity]|]. destruct (Rltb 0 1); reflexivity. }
  assert (LH : forall h, part_of n s h -> 0 <= p < lenZ (h_map h)) by (intros h ((G & L) & N & _); rewrite L, N; exact P).
  assert (HV : forall q, has q [p] = (q =? p)) by (intros q; cbn; apply Bool.orb_false_r).
  assert (PX : forall v, map (fun x => each + x)%R [(px (h_map (k_map k)) p / 1)%R] = [v] -> (v = px (h_map (k_map k)) p + each)%R) by (intros v [= <-]; field).
  destruct S as (SM & SW & SI). rewrite PO.
  destruct (set_one n s (k_wgt k) p 1%R SW P) as [W1 W2].
  set (v := (each + px (h_map (k_map k)) p / 1)%R). assert (V : (v * 1 = px (h_map (k_map k)) p + each)%R) by (unfold v; field).
  destruct (set_one n s (k_map k) p (v * 1)%R SM P) as [M1 M2].
  assert (RC : forall q, received q [([p], each, index)] = if q =? p then each else 0%R) by (intros q; unfold received; cbn [rsum]; rewrite HV; destruct (q =? p); cbn [length INR]; [field|ring]).
  assert (CV : forall q, covering q [([p], each, index)] = if q =? p then [([p], each, index)] else []) by (intros q; unfold covering; cbn [filter]; rewrite HV; reflexivity).
  assert (FIN : forall ind', Forall (part_of n s) ind' -> length ind' = length (k_ind k) -> (forall q, 0 <= q < 12 * (n * n) -> forall j h h', nth_error (k_ind k) j = Some h -> nth_error ind' j = Some h' ->
       px (h_map h') q = match j with O => if q =? p then index else px (h_map h) q | _ => px (h_map h) q end) ->
     raw n s [([p], each, index)] k (Sky (with_map (k_map k) (np_set (h_map (k_map k)) (Z.to_nat p) (v * 1)%R)) (with_map (k_wgt k) (np_set (h_map (k_wgt k)) (Z.to_nat p) 1%R)) ind')).
  { intros ind' SI' LI HI. split; [split; [exact M2|split; [exact W2|exact SI']]|]. split.
    - intros q Q. cbn [k_wgt with_map h_map]. rewrite px_set by (try apply LH; auto; lia). destruct (q =? p); [right; reflexivity|apply Z, Q].
    - split; [exact LI|]. intros q Q. cbn [k_map k_wgt k_ind with_map h_map]. rewrite !px_set by (try apply LH; auto; lia). rewrite RC, CV. split; [destruct (Z.eqb_spec q p) as [->|]; [exact V|ring]|].
      split; [destruct (q =? p); reflexivity|]. intros j h h' E E'. rewrite (HI q Q j h h' E E'). unfold last_index. rewrite CV. destruct j, (q =? p); reflexivity. }
  destruct nind as [|nind].
  - pose proof (proj1 NI eq_refl) as KI. rewrite KI. cbn [map]. fold v. unfold map_put. rewrite W1. cbn [bind mul_chk length Nat.eqb zip_mul combine map]. rewrite M1. cbn [bind inds_upd]. rewrite KI. eexists. split; [reflexivity|]. apply FIN; [constructor|now rewrite KI|].
    intros q Q j h h' E. rewrite KI in E. destruct j; discriminate.
  - destruct (k_ind k) as [|i0 ind] eqn:KI; [destruct NI as [_ NI]; discriminate (NI eq_refl)|]. cbn [map]. fold v. unfold map_put. rewrite W1. cbn [bind mul_chk length Nat.eqb zip_mul combine map]. rewrite M1, KI. cbn [bind inds_upd mul_chk length Nat.eqb zip_mul combine map].
    apply Forall_cons_iff in SI as [SI0 SI]. destruct (set_one n s i0 p (index * 1)%R SI0 P) as [I1 I2]. rewrite I1. cbn [bind]. assert (IU : forall f, inds_upd f ind [] = Ok ind) by (intros; destruct ind; reflexivity). rewrite IU. cbn [bind]. eexists. split; [reflexivity|]. apply FIN; [constructor; assumption|reflexivity|].
    intros q Q j h h' E E'. destruct j as [|j]; cbn in E, E'; [|congruence]. injection E as <-. injection E' as <-. cbn [with_map h_map]. rewrite px_set by (try apply LH; auto; lia). destruct (q =? p); [ring|reflexivity].
Qed.
Lemma has_in p ps : has p ps = true <-> In p ps.
Proof. unfold has. rewrite existsb_exists. split; [intros (x & I & E); apply Z.eqb_eq in E; now subst|]. intros I. exists p. rewrite Z.eqb_refl. auto. Qed.
Lemma adds_raw n s nind each index ps : forall k, sky_of n s k -> zero_one n k -> Forall (fun p => 0 <= p < 12 * (n * n)) ps -> (nind = O <-> k_ind k = []) ->
  exists k', foldM (add_px nind each index) ps k = Ok k' /\ raw n s (map (fun p => ([p], each, index)) ps) k k'.
Proof.
  induction ps as [|p ps IH]; intros k S Z F NI; cbn [foldM map]; [exists k; split; [reflexivity|apply raw_nil; assumption]|]. apply Forall_cons_iff in F as [F0 F].
  destruct (add_px_raw n s nind each index k p S Z F0 NI) as (k1 & -> & R1). cbn [bind].
  destruct (IH k1) as (k2 & -> & R2); [apply R1|apply R1|exact F| |].
  { rewrite NI. destruct R1 as (_ & _ & L & _). destruct (k_ind k), (k_ind k1); try discriminate; split; intros; congruence. }
  exists k2. split; [reflexivity|]. apply (raw_app n s [_] _ k k1 k2); assumption.
Qed.
Lemma spread_raw n s strength index ps k k' : ps <> [] -> NoDup ps -> raw n s (map (fun p => ([p], strength / INR (length ps), index)%R) ps) k k' -> raw n s [(ps, strength, index)] k k'.
Proof.
  intros NE ND. set (each := (strength / INR (length ps))%R). apply raw_same. intros p _.
  assert (RC : forall qs, NoDup qs -> received p (map (fun p => ([p], each, index)) qs) = (if has p qs then each else 0)%R).
  { clear. intros qs ND. unfold received. induction ND as [|q qs NI ND IH]; [reflexivity|]. cbn [map rsum]. rewrite IH. cbn [has existsb]. destruct (Z.eqb_spec p q) as [->|]; cbn [orb length INR].
    - replace (has q qs) with false by (symmetry; apply Bool.not_true_is_false; rewrite has_in; exact NI). field.
    - unfold has. destruct (existsb (Z.eqb p) qs); ring. }
  assert (CV : forall qs, NoDup qs -> covering p (map (fun p => ([p], each, index)) qs) = if has p qs then [([p], each, index)] else []).
  { clear. intros qs ND. unfold covering. induction ND as [|q qs NI ND IH]; [reflexivity|]. cbn [map filter]. rewrite IH. cbn [has existsb]. destruct (Z.eqb_spec p q) as [->|]; cbn [orb]; [|reflexivity].
    replace (has q qs) with false by (symmetry; apply Bool.not_true_is_false; rewrite has_in; exact NI). reflexivity. }
  assert (CW : covering p [(ps, strength, index)] = if has p ps then [(ps, strength, index)] else []) by (unfold covering; cbn [filter]; reflexivity).
  rewrite RC by assumption. unfold last_index. rewrite CV, CW by assumption. unfold received. cbn [rsum]. fold each. destruct (has p ps); (split; [ring|split; [split; intros; congruence|reflexivity]]).
Qed.
Lemma spread_each n s nind strength index ps : forall k, sky_of n s k -> zero_one n k -> ps <> [] -> NoDup ps -> Forall (fun p => 0 <= p < 12 * (n * n)) ps -> (nind = O <-> k_ind k = []) ->
  exists k', foldM (add_px nind (strength / INR (length ps))%R index) ps k = Ok k' /\ raw n s [(ps, strength, index)] k k'.
Proof. intros k S Z NE ND F NI. destruct (adds_raw n s nind (strength / INR (length ps))%R index ps k S Z F NI) as (k' & E & H). exists k'. split; [exact E|]. apply spread_raw; assumption. Qed.
End P.
