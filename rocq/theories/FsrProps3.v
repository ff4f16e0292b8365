(* C72: the delay-rate filter of scripts/filter_src.py. *)
From Coq Require Import Reals Lra.
From Verif Require Import Base BaselineModel CleanModel CleanSpec CleanProps CmdModel GridModel GridSpec GridProofs GridProofs2 ImgModel ImgSpec ImgProofs ImgProofs2 GeoModel SkyModel SkySpec SkyProofs FsrModel FsrSpec FsrProofs FsrProofs2 FsrProps.
Ltac Zify.zify_post_hook ::= idtac.
Open Scope R_scope.
Local Notation length := List.length.
Add Ring Cring6 : c_ring.

Lemma root_mean_ones n : (0 < n)%nat -> root_mean (repeat 1 n) = 1.
Proof.
  intros N. unfold root_mean. replace (fold_right (fun x s => x * x + s) 0 (repeat 1 n)) with (INR n).
  - rewrite repeat_length. replace (INR n / INR n) with 1 by (field; apply not_0_INR; lia). apply sqrt_1.
  - clear N. induction n as [|n IH]; [reflexivity|]. cbn [repeat fold_right]. rewrite <- IH, S_INR. ring.
Qed.
Lemma restored_ones tol n d : (0 < n)%nat -> length d = n -> restored tol (repeat 1 n) d = Ok d.
Proof.
  intros N L. destruct (restored_ok tol (repeat 1 n) d ltac:(lia)) as (x & m & r & E & LX & CL & X); [rewrite root_mean_ones by exact N; lra|]. rewrite E. f_equal.
  apply (nth_list_eq (0, 0)); [exact LX|]. intros k K. rewrite LX in K. rewrite X by exact K. rewrite L in *.
  change (nth k d (0, 0)) with (at_ d k). rewrite (cleaning_delta tol n _ (at_ d) m r N (ifft_ones n) CL k K). rewrite root_mean_ones by exact N. rewrite cscale_mul. replace (/ 1) with 1 by field. cr.
Qed.
Lemma map_nth_in {A B} (f : A -> B) (d : A) (e : B) l k : (k < length l)%nat -> nth k (map f l) e = f (nth k l d).
Proof. intros K. rewrite (nth_indep _ e (f d)) by (rewrite map_length; exact K). apply map_nth. Qed.
Definition plain (r : vis) : Prop := forall c, (c < length (flags r))%nat -> nth c (flags r) false = false.
Lemma xof_plain pols tol n v : (0 < n)%nat -> fit None pols n v -> plain v -> xof None tol n v = ifft (data v).
Proof.
  intros N ((L1 & L2) & _) P. destruct v as [[[[[t i] j] p] d] f]. unfold plain in P. cbn [data flags] in *. unfold xof. cbn [phased flags]. unfold delays.
  rewrite bcast_same by congruence. cbn [bind].
  assert (H : map (fun p => if fst p : bool then (0, 0) else snd p) (combine f d) = d).
  { assert (LC : length (map (fun p : bool * (R * R) => if fst p then (0, 0) else snd p) (combine f d)) = n) by (rewrite map_length, combine_length; lia).
    apply (nth_list_eq (0, 0)); [exact (eq_trans LC (eq_sym L1))|]. intros k K. rewrite (combine_nth_map _ false (0, 0)) by lia. cbn [fst snd]. rewrite P by lia. reflexivity. }
  rewrite H. replace (Nat.eqb (length d) 0) with false by (symmetry; apply Nat.eqb_neq; lia).
  destruct (forallb is_zero (ifft d)); [reflexivity|].
  replace (map (fun b : bool => if b then 0 else 1) f) with (repeat 1 n).
  - rewrite restored_ones; [reflexivity|exact N|rewrite ifft_length; exact L1].
  - symmetry. apply (nth_list_eq 0); [rewrite map_length, repeat_length; exact L2|]. rewrite map_length. intros k K. rewrite nth_repeat_lt by lia.
    rewrite (map_nth_in _ false) by exact K. rewrite P by exact K. reflexivity.
Qed.
Lemma padded_length {A} padlen (l : list A) : (padlen (length l) <= length l)%nat -> length (padded padlen l) = (length l + 2 * padlen (length l))%nat.
Proof. intros P. unfold padded. rewrite !app_length, !rev_length, firstn_length, skipn_length. lia. Qed.
Lemma padded_nth {A} padlen (d : A) l u : (padlen (length l) <= length l)%nat -> (u < length l + 2 * padlen (length l))%nat ->
  nth u (padded padlen l) d = nth (mirror (padlen (length l)) (length l) u) l d /\ (mirror (padlen (length l)) (length l) u < length l)%nat.
Proof.
  intros P U. unfold padded, mirror. set (p := padlen (length l)) in *. set (N := length l) in *. assert (LF : length (firstn p l) = p) by (rewrite firstn_length; lia).
  destruct (Nat.ltb_spec u p).
  - split; [|lia]. rewrite app_nth1 by (rewrite rev_length; lia). rewrite rev_nth by lia. rewrite LF. replace (p - S u)%nat with (p - 1 - u)%nat by lia.
    rewrite <- (firstn_skipn p l) at 2. rewrite app_nth1 by lia. reflexivity.
  - rewrite app_nth2 by (rewrite rev_length; lia). rewrite rev_length, LF. destruct (Nat.ltb_spec u (p + N)).
    + split; [|lia]. rewrite app_nth1 by (fold N; lia). reflexivity.
    + split; [|lia]. rewrite app_nth2 by (fold N; lia). fold N. assert (LS : length (skipn (N - p) l) = p) by (rewrite skipn_length; fold N; lia).
      rewrite rev_nth by lia. rewrite LS. rewrite <- (firstn_skipn (N - p) l) at 2. assert (LF2 : length (firstn (N - p) l) = (N - p)%nat) by (rewrite firstn_length; fold N; lia).
      rewrite app_nth2 by lia. rewrite LF2. f_equal. lia.
Qed.
Lemma column_length d c : length (column d c) = length d.
Proof. apply map_length. Qed.
Lemma column_nth d c t : (t < length d)%nat -> nth t (column d c) (0, 0) = nth c (nth t d []) (0, 0).
Proof.
  intros T. unfold column. rewrite (nth_indep _ (0, 0) (nth c [] (0, 0))) by (rewrite map_length; exact T). apply (map_nth (fun row => nth c row (0, 0))).
Qed.
Lemma across_length n cols : length (across n cols) = n.
Proof. unfold across. rewrite map_length, seq_length. reflexivity. Qed.
Lemma across_nth n cols t : (t < n)%nat -> nth t (across n cols) [] = column cols t.
Proof. intros T. unfold across. rewrite nth_seq_map by exact T. reflexivity. Qed.
Lemma mapres_all {A B} (f : A -> res B) (g : A -> B) l : (forall a, In a l -> f a = Ok (g a)) -> mapres f l = Ok (map g l).
Proof.
  induction l as [|a l IH]; intros H; [reflexivity|]. cbn [mapres map]. rewrite H by (left; reflexivity). cbn [bind]. rewrite IH by (intros; apply H; right; assumption). reflexivity.
Qed.

(* one baseline *)
Lemma block_rates drw dw tol filters padlen n k rows lim (P Q : nat -> Prop) : drw <> (-1)%Z -> (0 < n)%nat -> rows <> [] -> (padlen (length rows) <= length rows)%nat ->
  (forall r, In r rows -> length r = n /\ nth 0 r (0, 0) <> (0, 0)) -> limits None dw filters n k = Ok lim ->
  let L := (length rows + 2 * padlen (length rows))%nat in
  (forall m, (m < L)%nat -> nulled L drw (if Z.eqb (- drw + 1) 0 then Z.of_nat L else (- drw + 1)%Z) m = true <-> ~ P m) ->
  (forall j, (j < n)%nat -> nulled n (fst lim) (snd lim) j = true <-> ~ Q j) ->
  exists e : nat -> list (R * R), block None drw dw tol filters padlen true (k, rows) = Ok (k, map (fun c => e (padlen (length rows) + c)%nat) (seq 0 (length rows))) /\
    (forall u, (u < L)%nat -> length (e u) = n) /\
    forall m j, (m < L)%nat -> (j < n)%nat ->
      (P m /\ Q j -> component2 L e m j = component (map (fun u => nth j (nth (mirror (padlen (length rows)) (length rows) u) rows []) (0, 0)) (seq 0 L)) m) /\
      (~ (P m /\ Q j) -> component2 L e m j = (0, 0)).
Proof.
  intros ND N NE PA LR LI L HP HQ. pose proof (padded_length padlen rows PA) as LP. fold L in LP. set (d0 := padded padlen rows) in *.
  assert (NP : (0 < length rows)%nat) by (destruct rows; [congruence|cbn; lia]). assert (LL : (0 < L)%nat) by (unfold L; lia).
  assert (D0 : forall u, (u < L)%nat -> nth u d0 [] = nth (mirror (padlen (length rows)) (length rows) u) rows [] /\ In (nth u d0 []) rows).
  { intros u U. destruct (padded_nth padlen [] rows u PA U) as [E1 E2]. fold d0 in E1. rewrite E1. split; [reflexivity|]. apply nth_In, E2. }
  assert (L0 : length (nth 0 rows []) = n) by (apply LR, nth_In; exact NP).
  assert (L1 : length (nth 0 d0 []) = n) by (apply LR, D0; exact LL).
  set (cols := map (fun c => ifft (column d0 c)) (seq 0 n)).
  set (x2 := if Z.eqb (- drw + 1) 0 then Z.of_nat L else (- drw + 1)%Z) in *.
  set (M := null (map (fun _ => (0, 0)) (nth 0 d0 []) : list (R * R)) drw x2 (across L cols)).
  assert (RT : rates drw tol d0 = Ok M).
  { unfold rates. replace (Z.eqb drw (-1)) with false by (symmetry; apply Z.eqb_neq; exact ND). rewrite L1, LP. rewrite (mapres_all _ (fun c => ifft (column d0 c))); [reflexivity|].
    intros c _. replace (map (fun row => if is_zero (nth 0 row (0, 0)) then 0 else 1) d0) with (repeat 1 L).
    - apply restored_ones; [exact LL|]. rewrite ifft_length, column_length. exact LP.
    - symmetry. apply (nth_list_eq 0); [rewrite map_length, repeat_length; exact LP|]. rewrite map_length, LP. intros u U. rewrite nth_repeat_lt by exact U. rewrite (map_nth_in _ []) by lia.
      destruct (D0 u U) as [_ I]. destruct (LR _ I) as [_ NZ]. unfold is_zero. destruct (nth 0 (nth u d0 []) (0, 0)) as [a b]. cbn [fst snd]. destruct (Req_EM_T a 0); [|reflexivity]. destruct (Req_EM_T b 0); [|reflexivity]. congruence. }
  assert (LM : length M = L) by (unfold M; rewrite null_length, across_length; reflexivity).
  set (D := map (null (0, 0) (fst lim) (snd lim)) M).
  assert (LD : length D = L) by (unfold D; rewrite map_length; exact LM).
  assert (MR : forall u, (u < L)%nat -> length (nth u M []) = n).
  { intros u U. unfold M. rewrite null_nth by (rewrite across_length; exact U). destruct (nulled _ _ _ _); [rewrite map_length; exact L1|]. rewrite across_nth by exact U. rewrite column_length. unfold cols. rewrite map_length, seq_length. reflexivity. }
  assert (DV : forall m j, (m < L)%nat -> (j < n)%nat -> (P m /\ Q j -> nth j (nth m D []) (0, 0) = nth m (ifft (column d0 j)) (0, 0)) /\ (~ (P m /\ Q j) -> nth j (nth m D []) (0, 0) = (0, 0))).
  { intros m j Mm J. unfold D. rewrite (map_nth_in _ []) by lia. rewrite null_nth by (rewrite MR by exact Mm; exact J). rewrite MR by exact Mm. specialize (HQ j J). specialize (HP m Mm).
    assert (VM : nulled L drw x2 m = false -> nth j (nth m M []) (0, 0) = nth m (ifft (column d0 j)) (0, 0)).
    { intros V. unfold M. rewrite null_nth by (rewrite across_length; exact Mm). rewrite across_length, V. rewrite across_nth by exact Mm. rewrite column_nth by (unfold cols; rewrite map_length, seq_length; exact J).
      unfold cols. rewrite nth_seq_map by exact J. reflexivity. }
    assert (VZ : nulled L drw x2 m = true -> nth j (nth m M []) (0, 0) = (0, 0)).
    { intros V. unfold M. rewrite null_nth by (rewrite across_length; exact Mm). rewrite across_length, V. rewrite (map_nth_in _ (0, 0)) by lia. reflexivity. }
    destruct (nulled n (fst lim) (snd lim) j); [split; [intros [_ B]; exfalso; apply HQ; auto|reflexivity]|].
    destruct (nulled L drw x2 m); [split; [intros [A _]; exfalso; apply HP; auto|intros _; apply VZ; reflexivity]|].
    split; [intros _; apply VM; reflexivity|]. intros H. exfalso. assert (Q1 : ~ ~ Q j) by (intros W; apply HQ in W; discriminate). assert (P1 : ~ ~ P m) by (intros W; apply HP in W; discriminate). tauto. }
  set (G := across L (map (fun c => fft (column D c)) (seq 0 n))).
  assert (LG : length G = L) by apply across_length.
  assert (GR : forall u, (u < L)%nat -> length (nth u G []) = n /\ forall j, (j < n)%nat -> nth j (nth u G []) (0, 0) = nth u (fft (column D j)) (0, 0)).
  { intros u U. unfold G. rewrite across_nth by exact U. split; [rewrite column_length, map_length, seq_length; reflexivity|]. intros j J. rewrite column_nth by (rewrite map_length, seq_length; exact J). rewrite nth_seq_map by exact J. reflexivity. }
  exists (fun u => fft (nth u G [])). split; [|split].
  - unfold block. cbn [fst snd]. rewrite L0. replace (forallb _ rows) with true by (symmetry; apply forallb_forall; intros r I; apply Nat.eqb_eq, LR, I). cbn [negb]. fold d0. rewrite RT. cbn [bind]. rewrite LI. cbn [bind].
    fold D. replace (Z.eqb drw (-1)) with false by (symmetry; apply Z.eqb_neq; exact ND). rewrite LD. fold G. f_equal. f_equal. rewrite map_length, LG.
    replace (L - padlen (length rows) - padlen (length rows))%nat with (length rows) by (unfold L; lia). assert (LS : length (skipn (padlen (length rows)) (map fft G)) = (length rows + padlen (length rows))%nat) by (rewrite skipn_length, map_length, LG; unfold L; lia).
    apply (nth_list_eq []).
    + rewrite firstn_length, LS, map_length, seq_length. lia.
    + rewrite firstn_length, LS. intros c K. rewrite nth_seq_map by lia. rewrite <- (map_nth_in fft [] []) by (rewrite LG; unfold L; lia).
      rewrite <- (firstn_skipn (padlen (length rows)) (map fft G)) at 2. rewrite app_nth2 by (rewrite firstn_length; lia). rewrite firstn_length, map_length, LG.
      replace (padlen (length rows) + c - Nat.min (padlen (length rows)) L)%nat with c by (unfold L; lia).
      rewrite <- (firstn_skipn (length rows) (skipn (padlen (length rows)) (map fft G))) at 2. rewrite app_nth1; [reflexivity|]. rewrite firstn_length, LS. lia.
  - intros u U. rewrite fft_length. apply GR, U.
  - intros m j Mm J.
    assert (C2 : component2 L (fun u => fft (nth u G [])) m j = nth j (nth m D []) (0, 0)).
    { unfold component2. replace (map (fun u => component (fft (nth u G [])) j) (seq 0 L)) with (fft (column D j)).
      - rewrite component_ifft by (rewrite fft_length, column_length; lia). rewrite ifft_fft by (rewrite column_length; lia). apply column_nth. lia.
      - apply (nth_list_eq (0, 0)); [rewrite fft_length, column_length, map_length, seq_length; exact LD|]. rewrite fft_length, column_length, LD. intros u U. rewrite nth_seq_map by exact U.
        destruct (GR u U) as [A B]. rewrite component_ifft by (rewrite fft_length; lia). rewrite ifft_fft by lia. symmetry. apply B, J. }
    rewrite C2. destruct (DV m j Mm J) as [A B]. split; [|exact B]. intros H. rewrite A by exact H.
    replace (map (fun u => nth j (nth (mirror (padlen (length rows)) (length rows) u) rows []) (0, 0)) (seq 0 L)) with (column d0 j).
    + rewrite component_ifft by (rewrite column_length; lia). reflexivity.
    + apply (nth_list_eq (0, 0)); [rewrite column_length, map_length, seq_length; exact LP|]. rewrite column_length, LP. intros u U. rewrite nth_seq_map by exact U. rewrite column_nth by lia. rewrite (proj1 (D0 u U)). reflexivity.
Qed.
(* each record is answered with the row of its own *)
Lemma emit_at extract (P : list vis -> vis -> vis -> Prop) dat vs :
  (forall pre v post, vs = pre ++ v :: post -> is_auto v = true -> P pre v v) ->
  (forall pre v post, vs = pre ++ v :: post -> is_auto v = false -> exists rows x y, get dat (place v) = Some rows /\ nth_error rows (length (filter (mine (place v)) pre)) = Some x /\ answer None false extract v x = Ok y /\ P pre v y) ->
  forall cnt rest pre, vs = pre ++ rest -> (forall k, match get cnt k with Some c => c | None => 0%nat end = length (filter (mine k) pre)) ->
  exists out, emit None false extract dat cnt rest = (out, true) /\ length out = length rest /\ forall c v y, nth_error rest c = Some v -> nth_error out c = Some y -> P (pre ++ firstn c rest) v y.
Proof.
  intros HA HC cnt rest. revert cnt. induction rest as [|v rest IH]; intros cnt pre E CN; [exists []; split; [reflexivity|split; [reflexivity|intros [|c] v y H; discriminate]]|].
  assert (E2 : vs = (pre ++ [v]) ++ rest) by (rewrite <- app_assoc; exact E).
  assert (ST : forall out y0, P pre v y0 -> (forall c w y, nth_error rest c = Some w -> nth_error out c = Some y -> P ((pre ++ [v]) ++ firstn c rest) w y) ->
    forall c w y, nth_error (v :: rest) c = Some w -> nth_error (y0 :: out) c = Some y -> P (pre ++ firstn c (v :: rest)) w y).
  { intros out y0 P0 H [|c] w y A B; cbn [nth_error firstn] in *; [rewrite app_nil_r; congruence|]. specialize (H c w y A B). rewrite <- app_assoc in H. exact H. }
  destruct (is_auto v) eqn:AU.
  - destruct (IH cnt (pre ++ [v]) E2) as (out & EO & LO & F).
    { intros k. rewrite CN, filter_app, app_length. cbn [filter]. assert (MV : mine k v = false) by (unfold mine; rewrite AU; reflexivity). rewrite MV. cbn. lia. }
    exists (v :: out). split; [|split; [cbn; congruence|apply ST; [eapply HA; eauto|exact F]]].
    destruct v as [[[[[t i] j] p] d] f]. cbn [emit]. cbn [is_auto] in AU. rewrite AU, EO. reflexivity.
  - destruct (HC pre v rest E AU) as (rows & x & y & G & N & A & PV). destruct (IH (count_up cnt (place v)) (pre ++ [v]) E2) as (out & EO & LO & F).
    { intros k. rewrite get_count_up, CN, filter_app, app_length. cbn [filter]. assert (MV : mine k v = key_eqb (place v) k) by (unfold mine; rewrite AU; reflexivity). rewrite MV. destruct (key_eqb (place v) k); cbn; lia. }
    exists (y :: out). split; [|split; [cbn; congruence|apply ST; assumption]]. specialize (CN (place v)). destruct v as [[[[[t i] j] p] d] f]. cbn [emit]. cbn [is_auto place] in *. rewrite AU, G, CN, N, A, EO. reflexivity.
Qed.
Definition nothing : vis := (0, 0%Z, 0%Z, 0%Z, [], []).
Lemma choose {A B} (R0 : A -> B -> Prop) (dec : forall a b : A, {a = b} + {a <> b}) (d : B) (l : list A) : (forall a, In a l -> exists b, R0 a b) -> exists f : A -> B, forall a, In a l -> R0 a (f a).
Proof.
  induction l as [|a l IH]; intros H; [exists (fun _ => d); intros a []|]. destruct IH as [f F]; [intros; apply H; right; assumption|]. destruct (H a (or_introl eq_refl)) as [b B0].
  exists (fun x => if dec a x then b else f x). intros x [<-|I]; [destruct (dec a a); [exact B0|congruence]|]. destruct (dec a x) as [<-|]; [exact B0|apply F, I].
Qed.
Definition place_dec (a b : Z * Z) : {a = b} + {a <> b}.
Proof. decide equality; apply Z.eq_dec. Defined.
(* what is taken of the baselines, time by time: e *)
Definition taken (n : nat) (padlen : nat -> nat) (P : nat -> nat -> Prop) (Q : nat -> Prop) (rs : list vis) (e : Z * Z -> nat -> list (R * R)) : Prop :=
  forall r, In r rs -> ~ auto r -> let l := filter (mine (place r)) rs in let p := padlen (length l) in let L := (length l + 2 * p)%nat in
    forall m k, (m < L)%nat -> (k < n)%nat ->
      (P L m /\ Q k -> component2 L (e (place r)) m k = component2 L (fun u => data (nth (mirror p (length l) u) l nothing)) m k) /\
      (~ (P L m /\ Q k) -> component2 L (e (place r)) m k = (0, 0)).
Definition answered (extract : bool) (n : nat) (padlen : nat -> nat) (rs out : list vis) (e : Z * Z -> nat -> list (R * R)) : Prop :=
  length out = length rs /\ forall c r r', nth_error rs c = Some r -> nth_error out c = Some r' -> (auto r -> r' = r) /\
    (~ auto r -> written extract n (e (place r) (padlen (length (filter (mine (place r)) rs)) + length (filter (mine (place r)) (firstn c rs)))%nat) r r').
Lemma run_rates pols drw dw extract tol filters padlen n (P : nat -> nat -> Prop) rs : (0 < n)%nat -> (0 <= dw)%Z -> drw <> (-1)%Z -> (forall a, (padlen a <= a)%nat) -> Forall (fit None pols n) rs ->
  (forall r, In r rs -> ~ auto r -> plain r /\ component (data r) 0 <> (0, 0)) ->
  (forall L m, (m < L)%nat -> nulled L drw (if Z.eqb (- drw + 1) 0 then Z.of_nat L else (- drw + 1)%Z) m = true <-> ~ P L m) ->
  exists out e, run None pols drw dw false extract tol filters padlen rs = (out, true) /\ answered extract n padlen rs out e /\ taken n padlen P (near n dw) rs e.
Proof.
  intros N D ND PA F PL HP. destruct (gather_ok None pols tol n rs N F [] false) as (dat & E & G). pose proof (gather_nodup None pols tol false rs [] false _ _ (NoDup_nil _) E) as NDD.
  set (up := existsb (fun v => (negb (is_auto v) && sky None v)%bool) rs) in *. cbn [orb] in E.
  assert (GK : forall k, get dat k = match map (xof None tol n) (filter (mine k) rs) with [] => None | l => Some l end).
  { intros k. rewrite G. cbn [get app]. destruct (map (xof None tol n) (filter (mine k) rs)); reflexivity. }
  set (lim := (dw, if Z.eqb (- dw) 0 then Z.of_nat n else (- dw)%Z)).
  assert (LI : forall k, limits None dw filters n k = Ok lim) by (intros k; unfold limits; destruct (Z.eqb_spec dw (-1)); [lia|reflexivity]).
  assert (MI : forall k v, In v (filter (mine k) rs) -> In v rs /\ ~ auto v /\ place v = k).
  { intros k v I. apply filter_In in I as [I M]. unfold mine in M. apply andb_prop in M as [M1 M2]. destruct (key_eqb_spec (place v) k); [|discriminate]. split; [exact I|]. split; [apply cross_iff; destruct (is_auto v); [discriminate|reflexivity]|assumption]. }
  assert (XP : forall v, In v rs -> ~ auto v -> xof None tol n v = ifft (data v) /\ length (data v) = n).
  { intros v I A. pose proof (proj1 (Forall_forall _ _) F v I) as FV. split; [apply (xof_plain pols); [exact N|exact FV|exact (proj1 (PL v I A))]|exact (proj1 (proj1 FV))]. }
  assert (UP : forall v, In v rs -> ~ auto v -> up = true).
  { intros v I A. apply existsb_exists. exists v. split; [exact I|]. apply cross_iff in A. rewrite A. destruct v as [[[[[t i] j] p] d] f]. reflexivity. }
  set (keys := map place (filter (fun v => negb (is_auto v)) rs)).
  assert (KI : forall k, In k keys <-> filter (mine k) rs <> []).
  { intros k. unfold keys. rewrite in_map_iff. split.
    - intros (v & <- & I). apply filter_In in I as [I A]. intros H. assert (J : In v (filter (mine (place v)) rs)) by (apply filter_In; split; [exact I|]; unfold mine; rewrite A, key_eqb_refl; reflexivity). rewrite H in J. destruct J.
    - intros H. destruct (filter (mine k) rs) as [|v l] eqn:EF; [congruence|]. assert (J : In v (filter (mine k) rs)) by (rewrite EF; left; reflexivity). destruct (MI k v J) as (A & B & C). exists v. split; [exact C|]. apply filter_In. split; [exact A|]. apply cross_iff in B. rewrite B. reflexivity. }
  set (xs := fun k => map (xof None tol n) (filter (mine k) rs)).
  destruct (choose (fun k (e : nat -> list (R * R)) => let rows := xs k in let L := (length rows + 2 * padlen (length rows))%nat in
     block None drw dw tol filters padlen true (k, rows) = Ok (k, map (fun c => e (padlen (length rows) + c)%nat) (seq 0 (length rows))) /\
    (forall u, (u < L)%nat -> length (e u) = n) /\
    forall m j, (m < L)%nat -> (j < n)%nat ->
      (P L m /\ near n dw j -> component2 L e m j = component (map (fun u => nth j (nth (mirror (padlen (length rows)) (length rows) u) rows []) (0, 0)) (seq 0 L)) m) /\
      (~ (P L m /\ near n dw j) -> component2 L e m j = (0, 0))) place_dec (fun _ => []) keys) as (e & HE).
  { intros k K. apply KI in K. apply (block_rates drw dw tol filters padlen n k (xs k) lim (P (length (xs k) + 2 * padlen (length (xs k)))%nat) (near n dw)); auto.
    - unfold xs. destruct (filter (mine k) rs); [congruence|discriminate].
    - intros r I. apply in_map_iff in I as (v & <- & I). destruct (MI k v I) as (A & B & _). destruct (XP v A B) as [X LX]. rewrite X. split; [rewrite ifft_length; exact LX|].
      rewrite <- component_ifft by lia. exact (proj2 (PL v A B)).
    - intros j J. apply near_nulled; assumption. }
  assert (GD : forall k rows, get dat k = Some rows -> rows = xs k /\ In k keys).
  { intros k rows H. rewrite GK in H. fold (xs k) in H. split; [destruct (xs k); congruence|]. apply KI. unfold xs in H. destruct (filter (mine k) rs); discriminate. }
  assert (UK : forall k, In k keys -> up = true).
  { intros k K. apply KI in K. destruct (filter (mine k) rs) as [|v l] eqn:EF; [congruence|]. assert (J : In v (filter (mine k) rs)) by (rewrite EF; left; reflexivity). destruct (MI k v J) as (A & B & _). eapply UP; eauto. }
  destruct (mapres_get (block None drw dw tol filters padlen up) dat) as (dat' & E2 & G2).
  { intros [k rows] I. eexists. apply (get_in dat k rows NDD) in I. destruct (GD k rows I) as [-> K]. rewrite (UK k K). apply HE, K. }
  unfold run. rewrite E. cbn [bind fst snd]. rewrite E2.
  assert (LX : forall k, length (xs k) = length (filter (mine k) rs)) by (intros k; unfold xs; apply map_length).
  destruct (emit_at extract (fun pre r r' => (auto r -> r' = r) /\
    (~ auto r -> written extract n (e (place r) (padlen (length (filter (mine (place r)) rs)) + length (filter (mine (place r)) pre))%nat) r r')) dat' rs) with (cnt := @nil (Z * Z * nat)) (rest := rs) (pre := @nil vis) as (out & EO & LO & AN).
  - intros pre v post _ A. split; [reflexivity|]. intros B. apply cross_iff in B. congruence.
  - intros pre v post EV A. assert (I : In v rs) by (rewrite EV; apply in_or_app; right; left; reflexivity). pose proof (proj1 (cross_iff v) A) as NA. assert (M : mine (place v) v = true) by (unfold mine; rewrite A, key_eqb_refl; reflexivity).
    assert (IV : In v (filter (mine (place v)) rs)) by (apply filter_In; auto).
    assert (K : In (place v) keys) by (apply KI; intros H; rewrite H in IV; destruct IV).
    assert (HG : get dat (place v) = Some (xs (place v))) by (rewrite GK; fold (xs (place v)); destruct (xs (place v)) eqn:EX; [|reflexivity]; exfalso; apply map_eq_nil in EX; rewrite EX in IV; destruct IV).
    destruct (G2 _ _ HG) as (y & EB & GY). destruct (HE _ K) as (HB & HL & _). rewrite (UK _ K), HB in EB. injection EB as EB.
    set (c := length (filter (mine (place v)) pre)). assert (CL : (c < length (xs (place v)))%nat).
    { rewrite LX, EV, filter_app, app_length. cbn [filter]. rewrite M. cbn [length]. unfold c. lia. }
    assert (NR : nth_error y c = Some (e (place v) (padlen (length (xs (place v))) + c)%nat)).
    { subst y. rewrite nth_error_map. rewrite (nth_error_nth' (seq 0 (length (xs (place v)))) 0%nat) by (rewrite seq_length; exact CL). rewrite seq_nth by exact CL. reflexivity. }
    destruct (answer_ok None extract n v (e (place v) (padlen (length (xs (place v))) + c)%nat) (e (place v) (padlen (length (xs (place v))) + c)%nat)) as (r' & EA & WR).
    + exact (proj1 (proj1 (Forall_forall _ _) F v I)).
    + apply HL. lia.
    + destruct v as [[[[[t i] j] p] d] f]. reflexivity.
    + exists y, (e (place v) (padlen (length (xs (place v))) + c)%nat), r'. split; [exact GY|]. split; [exact NR|]. split; [exact EA|]. split; [intros H; contradiction|]. intros _. rewrite <- LX. exact WR.
  - reflexivity.
  - reflexivity.
  - exists out, e. split; [exact EO|]. split; [split; [exact LO|exact AN]|]. intros r I NA l p L m k Mm K.
    assert (IV : In r (filter (mine (place r)) rs)) by (apply filter_In; split; [exact I|]; unfold mine; apply cross_iff in NA; rewrite NA, key_eqb_refl; reflexivity).
    assert (KK : In (place r) keys) by (apply KI; intros H; rewrite H in IV; destruct IV).
    destruct (HE _ KK) as (_ & _ & HC). rewrite LX in HC. fold l in HC. fold p in HC. fold L in HC. destruct (HC m k Mm K) as [A B]. split; [|exact B]. intros H. rewrite A by exact H.
    unfold component2. f_equal. apply map_ext_in. intros u U. apply in_seq in U. assert (ML : (mirror p (length l) u < length l)%nat) by (apply (padded_nth padlen nothing l u); [apply PA|unfold L, p in U; lia]).
    unfold xs. fold l. rewrite (map_nth_in _ nothing) by exact ML. assert (IL : In (nth (mirror p (length l) u) l nothing) l) by (apply nth_In; exact ML).
    destruct (MI _ _ IL) as (A1 & B1 & _). destruct (XP _ A1 B1) as [-> LD]. symmetry. apply component_ifft. lia.
Qed.
(* the delays from -dw up to dw with rates above -drw and below drw are taken, of the times mirrored at both ends *)
Theorem C72_rates pols drw dw extract tol filters padlen n rs : (0 < n)%nat -> (0 <= dw)%Z -> (1 <= drw)%Z -> (forall a, (padlen a <= a)%nat) -> Forall (fit None pols n) rs ->
  (forall r, In r rs -> ~ auto r -> plain r /\ component (data r) 0 <> (0, 0)) ->
  exists out e, run None pols drw dw false extract tol filters padlen rs = (out, true) /\ answered extract n padlen rs out e /\ taken n padlen (fun L => slow L drw) (near n dw) rs e.
Proof.
  intros N D R1 PA F PL. apply run_rates; auto; [lia|]. intros L m M. unfold nulled, slow, py_index. rewrite Bool.andb_true_iff, Nat.leb_le, Nat.ltb_lt. destruct (Z.ltb_spec drw 0); [lia|]. destruct (Z.eqb_spec (- drw + 1) 0).
  - destruct (Z.ltb_spec (Z.of_nat L) 0); lia.
  - destruct (Z.ltb_spec (- drw + 1) 0); lia.
Qed.
Print Assumptions C72_rates.
(* finding: -r 0 takes every rate but zero, while -d 0 takes no delay *)
Theorem C72_rate_zero_refuted pols dw extract tol filters padlen n rs : (0 < n)%nat -> (0 <= dw)%Z -> (forall a, (padlen a <= a)%nat) -> Forall (fit None pols n) rs ->
  (forall r, In r rs -> ~ auto r -> plain r /\ component (data r) 0 <> (0, 0)) ->
  exists out e, run None pols 0 dw false extract tol filters padlen rs = (out, true) /\ answered extract n padlen rs out e /\ taken n padlen (fun _ m => m <> 0%nat) (near n dw) rs e.
Proof.
  intros N D PA F PL. apply run_rates; auto; [lia|]. intros L m M. unfold nulled, py_index. rewrite Bool.andb_true_iff, Nat.leb_le, Nat.ltb_lt. cbn. lia.
Qed.
Print Assumptions C72_rate_zero_refuted.
Example C72_rates_ex : let r := (0, 0%Z, 1%Z, (-5)%Z, [(1, 0)], [false]) in fit None [(-5)%Z] 1 r /\ ~ auto r /\ plain r /\ component (data r) 0 <> (0, 0).
Proof.
  cbn [fit auto data]. split; [|split; [lia|split]].
  - split; [split; reflexivity|]. split; [intros _; left; reflexivity|]. intros ph E. cbn in E. injection E as <-. split; [reflexivity|]. intros z [<-|[]] H. injection H as H. lra.
  - intros [|c] H; cbn in *; [reflexivity|lia].
  - intros H. apply (f_equal fst) in H. unfold component, circle, sum, times, plus in H. cbn in H. replace (2 * PI * (0 * 0 / 1)) with 0 in H by field. rewrite cos_0, sin_0 in H. field_simplify in H. lra.
Qed.
Example C72_mirror_ex : map (mirror 2 5) (seq 0 9) = [1; 0; 0; 1; 2; 3; 4; 4; 3]%nat /\ forall m, (m < 9)%nat -> slow 9 2 m <-> In m [0; 1; 8]%nat.
Proof. split; [reflexivity|]. intros m M. unfold slow. cbn [In]. lia. Qed.
