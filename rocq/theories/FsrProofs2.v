From Coq Require Import Reals Lra.
From Verif Require Import Base BaselineModel CleanModel CleanSpec CmdModel GridModel GridSpec ImgModel ImgSpec GeoModel SkyModel SkySpec SkyProofs FsrModel FsrSpec FsrProofs.
Ltac Zify.zify_post_hook ::= idtac.
Open Scope R_scope.
Local Notation length := List.length.
Add Ring Cring3 : c_ring.

Lemma bcast_same {A B D} (f : A -> B -> D) l m : length l = length m -> bcast f l m = Ok (map (fun p => f (fst p) (snd p)) (combine l m)).
Proof. intros L. unfold bcast. rewrite L, Nat.eqb_refl. reflexivity. Qed.
Lemma key_eqb_spec a b : reflect (a = b) (key_eqb a b).
Proof.
  destruct a as [a1 a2], b as [b1 b2]. unfold key_eqb. cbn [fst snd]. destruct (Z.eqb_spec a1 b1), (Z.eqb_spec a2 b2); cbn [andb]; constructor; congruence.
Qed.
Lemma key_eqb_refl a : key_eqb a a = true.
Proof. destruct (key_eqb_spec a a); congruence. Qed.
Lemma get_append {A} (d : list (_ * list A)) k a k' :
  get (append d k a) k' = if key_eqb k k' then Some (match get d k with Some l => l | None => [] end ++ [a]) else get d k'.
Proof.
  induction d as [|[c l] d IH]; cbn [append get].
  - destruct (key_eqb k k'); reflexivity.
  - destruct (key_eqb_spec c k) as [->|NE]; cbn [get].
    + destruct (key_eqb_spec k k') as [->|N2]; [reflexivity|]. reflexivity.
    + rewrite IH. destruct (key_eqb_spec c k') as [->|N2]; [|reflexivity]. destruct (key_eqb_spec k k') as [->|N3]; [contradiction|reflexivity].
Qed.
Lemma get_count_up d k k' : match get (count_up d k) k' with Some c => c | None => 0%nat end =
  ((if key_eqb k k' then 1 else 0) + match get d k' with Some c => c | None => 0 end)%nat.
Proof.
  induction d as [|[c l] d IH]; cbn [count_up get].
  - destruct (key_eqb k k'); reflexivity.
  - destruct (key_eqb_spec c k) as [->|NE]; cbn [get].
    + destruct (key_eqb_spec k k') as [->|N2]; reflexivity.
    + destruct (key_eqb_spec c k') as [->|N2]; [|exact IH]. destruct (key_eqb_spec k k') as [->|N3]; [contradiction|reflexivity].
Qed.

Notation vis := (R * Z * Z * Z * list (R * R) * list bool)%type (only parsing).
Definition place (v : vis) : Z * Z := let '(_, i, j, p, _, _) := v in (p, ij2bl i j).
Definition is_auto (v : vis) : bool := let '(_, i, j, _, _, _) := v in Z.eqb i j.
Definition mine (k : Z * Z) (v : vis) : bool := (negb (is_auto v) && key_eqb (place v) k)%bool.

Section Run.
Variable src : option (R -> Z -> Z -> Z -> option (list (R * R))).
Variable pols : list Z.
Variable tol : R.
Variable n : nat.
(* the transform of a record *)
Definition xof (v : vis) : list (R * R) :=
  match phased src v with Ok (Some d) => match delays tol d (flags v) with Ok x => x | Err => [] end | _ => repeat (0, 0) n end.
Definition sky (v : vis) : bool := match phased src v with Ok (Some _) => true | _ => false end.
Local Notation fine := (fit src pols n) (only parsing).
Lemma toward_length ph s : length ph = n -> length s = n -> length (toward ph s) = n.
Proof. intros A B. unfold toward. rewrite map_length, combine_length. lia. Qed.
Lemma toward_ones s : length s = n -> toward (repeat (1, 0) n) s = s.
Proof.
  intros L. apply (nth_list_eq (0, 0)); [rewrite toward_length; auto; apply repeat_length|]. rewrite toward_length by (auto; apply repeat_length). intros k K.
  unfold toward. rewrite (combine_nth_map _ (0, 0) (0, 0)) by (rewrite ?repeat_length; lia). cbn [fst snd]. rewrite nth_repeat_lt by exact K. change times with cmul. cr.
Qed.
Lemma phased_ok v : fine v -> phased src v = Ok (match phases src n v with Some ph => Some (toward ph (data v)) | None => None end).
Proof.
  destruct v as [[[[[t i] j] p] d] f]. intros ((L1 & L2) & _ & P). cbn [data flags] in *. unfold phased, phases in *. destruct src as [g|].
  - destruct (g t p i j) as [ph|]; [|reflexivity]. destruct (P ph eq_refl) as [LP _]. rewrite bcast_same by exact (eq_trans L1 (eq_sym LP)). reflexivity.
  - cbn [data]. rewrite toward_ones by exact L1. reflexivity.
Qed.
Definition hidden (f : list bool) (d : list (R * R)) : list (R * R) := map (fun p : bool * (R * R) => if fst p then (0, 0) else snd p) (combine f d).
Lemma hidden_length f d : length f = n -> length d = n -> length (hidden f d) = n.
Proof. intros A B. unfold hidden. rewrite map_length, combine_length. lia. Qed.
Definition weights (f : list bool) : list R := map (fun b : bool => if b then 0 else 1) f.
Lemma weights_length f : length (weights f) = length f.
Proof. apply map_length. Qed.
Lemma root_mean_weights f : root_mean (weights f) = sqrt (INR (length (filter negb f)) / INR (length f)).
Proof.
  unfold root_mean. rewrite weights_length. f_equal. f_equal. induction f as [|b f IH]; [reflexivity|]. cbn [weights map fold_right filter]. fold (weights f). rewrite IH. destruct b; cbn [negb length]; [ring|].
  rewrite S_INR. ring.
Qed.
Lemma gain_pos f d : (0 < n)%nat -> length f = n -> length d = n -> forallb is_zero (ifft (hidden f d)) = false -> root_mean (weights f) <> 0.
Proof.
  intros pos LF LD H. rewrite root_mean_weights. assert (P : (0 < length (filter negb f))%nat).
  { destruct (filter negb f) as [|b l] eqn:E; [|cbn; lia]. exfalso.
    assert (A : hidden f d = map (fun _ => (0, 0)) (hidden f d)).
    { unfold hidden. rewrite map_map. apply map_ext_in. intros [b z] I. apply in_combine_l in I. cbn [fst snd]. destruct b; [reflexivity|]. exfalso.
      assert (Q : In false (filter negb f)) by (apply filter_In; auto). rewrite E in Q. destruct Q. }
    apply Bool.not_true_iff_false in H. apply H. apply forallb_forall. intros z I. apply (In_nth _ _ (0, 0)) in I as (k & K & E2). rewrite ifft_length in K. rewrite ifft_nth in E2 by exact K.
    rewrite csum_zero in E2.
    - subst z. unfold cscale, is_zero. cbn [fst snd]. rewrite Rmult_0_r. destruct (Req_EM_T 0 0); [reflexivity|contradiction].
    - intros x _. rewrite A. replace (nth x (map (fun _ => (0, 0)) (hidden f d)) (0, 0)) with (0, 0); [cr|]. symmetry. generalize x (hidden f d). clear. intros x l. revert x. induction l as [|z l IH]; intros [|x]; cbn; auto. }
  assert (A : 0 < INR (length (filter negb f))) by (apply lt_0_INR; exact P). assert (B2 : 0 < INR (length f)) by (apply lt_0_INR; lia).
  intros E. apply sqrt_eq_0 in E; [|apply Rlt_le, Rdiv_lt_0_compat; assumption]. pose proof (Rdiv_lt_0_compat _ _ A B2). lra.
Qed.
(* the delays of a record: cleaned, unless there is nothing *)
Definition cleaned (f : list bool) (d : list (R * R)) (x : nat -> R * R) : Prop :=
  (forall k, (k < n)%nat -> component (hidden f d) k = (0, 0)) /\ (forall k, (k < n)%nat -> x k = (0, 0)) \/
  exists m r, cleaning tol n (at_ (ifft (map (fun x => (x, 0)) (weights f)))) (at_ (ifft (hidden f d))) m r /\
    root_mean (weights f) <> 0 /\ forall k, (k < n)%nat -> x k = cadd (m k) (cscale (/ root_mean (weights f)) (r k)).
Lemma delays_ok f d : (0 < n)%nat -> length f = n -> length d = n -> exists x, delays tol d f = Ok x /\ length x = n /\ cleaned f d (at_ x).
Proof.
  intros pos LF LD. unfold delays. rewrite bcast_same by congruence. cbn [bind]. fold (hidden f d). pose proof (hidden_length f d LF LD) as LH.
  replace (Nat.eqb (length (hidden f d)) 0) with false by (symmetry; apply Nat.eqb_neq; lia). destruct (forallb is_zero (ifft (hidden f d))) eqn:Z0.
  - eexists. split; [reflexivity|]. split; [rewrite ifft_length; exact LH|]. left.
    assert (A : forall k, (k < n)%nat -> nth k (ifft (hidden f d)) (0, 0) = (0, 0)).
    { intros k K. rewrite forallb_forall in Z0. assert (HI : In (nth k (ifft (hidden f d)) (0, 0)) (ifft (hidden f d))) by (apply nth_In; rewrite ifft_length; lia). specialize (Z0 _ HI).
      unfold is_zero in Z0. destruct (nth k (ifft (hidden f d)) (0, 0)) as [u w]. cbn [fst snd] in Z0. destruct (Req_EM_T u 0); [|discriminate]. destruct (Req_EM_T w 0); [|discriminate]. congruence. }
    split; [|exact A]. intros k K. rewrite component_ifft by lia. apply A, K.
  - fold (weights f). pose proof (gain_pos f d pos LF LD Z0) as G.
    destruct (restored_ok tol (weights f) (ifft (hidden f d))) as (x & m & r & E & LX & CL & X); [rewrite ifft_length; lia|exact G|]. rewrite ifft_length, LH in *.
    exists x. split; [exact E|]. split; [exact LX|]. right. exists m, r. auto.
Qed.
Lemma xof_length v : (0 < n)%nat -> fine v -> length (xof v) = n.
Proof.
  intros pos F. unfold xof. rewrite phased_ok by exact F. pose proof F as ((L1 & L2) & _ & P). destruct (phases src n v) as [ph|]; [|apply repeat_length].
  destruct (P ph eq_refl) as [LP _]. destruct (delays_ok (flags v) (toward ph (data v)) pos L2 (toward_length _ _ LP L1)) as (x & E & LX & _). rewrite E. exact LX.
Qed.
Lemma gather_ok vs : (0 < n)%nat -> Forall fine vs -> forall dat up, exists dat', gather src pols false tol vs dat up = Ok (dat', (up || existsb (fun v => negb (is_auto v) && sky v) vs)%bool) /\
  forall k, get dat' k = match map xof (filter (mine k) vs) with [] => get dat k | l => Some (match get dat k with Some m => m | None => [] end ++ l) end.
Proof.
  intros pos. induction 1 as [|v vs F _ IH]; intros dat up; [exists dat; split; [rewrite Bool.orb_false_r; reflexivity|reflexivity]|].
  pose proof (phased_ok v F) as PH. pose proof F as ((L1 & L2) & PO & P). assert (SK : sky v = match phases src n v with Some _ => true | None => false end) by (unfold sky; rewrite PH; destruct (phases src n v); reflexivity).
  assert (XO : xof v = match phases src n v with Some ph => match delays tol (toward ph (data v)) (flags v) with Ok x => x | Err => [] end | None => repeat (0, 0) n end) by (unfold xof; rewrite PH; destruct (phases src n v); reflexivity).
  cbn [filter existsb]. unfold mine at 1. rewrite SK. destruct v as [[[[[t i] j] p] d] f]. cbn [gather]. cbn [is_auto place data flags polarisation auto] in *.
  destruct (Z.eqb_spec i j) as [->|NE].
  - rewrite Bool.orb_true_r. cbn [negb andb orb]. destruct (IH dat up) as (dat' & E & G). exists dat'. split; [exact E|exact G].
  - rewrite Bool.orb_false_r. cbn [negb andb]. assert (IP : existsb (Z.eqb p) pols = true) by (apply existsb_exists; exists p; split; [apply PO; exact NE|apply Z.eqb_refl]). rewrite IP. cbn [negb]. rewrite PH.
    destruct (phases src n (t, i, j, p, d, f)) as [ph|] eqn:EP.
    + destruct (P ph eq_refl) as [LP _]. destruct (delays_ok f (toward ph d) pos L2 (toward_length _ _ LP L1)) as (x & EX & LX & _). rewrite EX in *. cbn [bind].
      destruct (IH (append dat (p, ij2bl i j) x) true) as (dat' & E & G). exists dat'. split; [rewrite E; cbn [orb]; rewrite Bool.orb_true_r; reflexivity|].
      intros k. rewrite G, get_append. destruct (key_eqb_spec (p, ij2bl i j) k) as [<-|NK].
      * cbn [map]. rewrite XO. destruct (map xof (filter (mine (p, ij2bl i j)) vs)) as [|y l]; [reflexivity|]. rewrite <- app_assoc. reflexivity.
      * reflexivity.
    + replace (map (fun _ : R * R => (0, 0)) d) with (repeat (0, 0) n) by (rewrite <- L1; clear; induction d as [|z d IH]; cbn; congruence).
      destruct (IH (append dat (p, ij2bl i j) (repeat (0, 0) n)) up) as (dat' & E & G). exists dat'. split; [exact E|].
      intros k. rewrite G, get_append. destruct (key_eqb_spec (p, ij2bl i j) k) as [<-|NK].
      * cbn [map]. rewrite XO. destruct (map xof (filter (mine (p, ij2bl i j)) vs)) as [|y l]; [reflexivity|]. rewrite <- app_assoc. reflexivity.
      * reflexivity.
Qed.
Lemma append_keys {A} (d : list (_ * list A)) k a : (forall c, In c (map fst (append d k a)) <-> c = k \/ In c (map fst d)) /\ (NoDup (map fst d) -> NoDup (map fst (append d k a))).
Proof.
  induction d as [|[c l] d [I1 I2]]; cbn [append map fst].
  - split; [cbn; intuition congruence|]. intros _. constructor; [intros []|constructor].
  - destruct (key_eqb_spec c k) as [->|NE]; cbn [map fst].
    + split; [cbn [In]; intuition congruence|auto].
    + split; [intros x; cbn [In]; rewrite I1; intuition congruence|]. intros ND. inversion ND as [|? ? N1 N2]; subst. constructor; [|apply I2, N2]. rewrite I1. intros [->|H]; [apply NE; reflexivity|contradiction].
Qed.
Lemma gather_nodup pb vs : forall dat up dat' up', NoDup (map fst dat) -> gather src pols pb tol vs dat up = Ok (dat', up') -> NoDup (map fst dat').
Proof.
  induction vs as [|[[[[[t i] j] p] d] f] vs IH]; intros dat up dat' up' ND E; cbn [gather] in E; [congruence|].
  destruct (negb (existsb (Z.eqb p) pols) || Z.eqb i j)%bool; [eapply IH; eauto|]. destruct (phased src (t, i, j, p, d, f)) as [[x|]|]; [|eapply IH; [|exact E]; apply append_keys, ND|discriminate].
  destruct pb; [discriminate|]. destruct (delays tol x f) as [y|]; [|discriminate]. cbn [bind] in E. eapply IH; [|exact E]. apply append_keys, ND.
Qed.
End Run.
Lemma get_in {A} (d : list (_ * A)) k a : NoDup (map fst d) -> In (k, a) d -> get d k = Some a.
Proof.
  induction d as [|[c b] d IH]; intros ND I; [destruct I|]. cbn [map fst] in ND. inversion ND as [|? ? N1 N2]; subst. cbn [get]. destruct I as [E|I].
  - injection E as -> ->. rewrite key_eqb_refl. reflexivity.
  - destruct (key_eqb_spec c k) as [->|NE]; [|apply IH; assumption]. exfalso. apply N1. apply (in_map fst) in I. exact I.
Qed.
Lemma mapres_get {A B} (f : _ * A -> res (_ * B)) l : (forall e, In e l -> exists y, f e = Ok (fst e, y)) ->
  exists l', mapres f l = Ok l' /\ forall k a, get l k = Some a -> exists y, f (k, a) = Ok (k, y) /\ get l' k = Some y.
Proof.
  induction l as [|[c b] l IH]; intros H; [exists []; split; [reflexivity|discriminate]|]. destruct (H (c, b) (or_introl eq_refl)) as (y & E). destruct IH as (l' & E2 & G); [intros; apply H; right; assumption|].
  cbn [mapres]. rewrite E. cbn [bind]. rewrite E2. cbn [bind]. eexists. split; [reflexivity|]. intros k a. cbn [get fst]. destruct (key_eqb_spec c k) as [->|NE].
  - intros X. injection X as ->. exists y. auto.
  - apply G.
Qed.
Lemma unpad {A B} padlen (g : A -> B) (l : list A) : (padlen (length l) <= length l)%nat ->
  let p := padlen (length l) in let d := map g (padded padlen l) in firstn (length d - p - p) (skipn p d) = map g l.
Proof.
  intros P p d. unfold d, padded. fold p. fold p in P. rewrite !map_app. rewrite skipn_app. assert (LA : length (map g (rev (firstn p l))) = p) by (rewrite map_length, rev_length, firstn_length; lia).
  rewrite (skipn_all2 (n := p) (map g (rev (firstn p l)))) by (rewrite LA; lia). rewrite LA, Nat.sub_diag. cbn [app skipn]. assert (LB : length (map g (rev (skipn (length l - p) l))) = p) by (rewrite map_length, rev_length, skipn_length; lia).
  rewrite !app_length, LA, LB. rewrite map_length. replace (p + (length l + p) - p - p)%nat with (length (map g l)) by (rewrite map_length; lia). rewrite firstn_app, Nat.sub_diag, firstn_all. cbn [firstn]. apply app_nil_r.
Qed.
Definition kept_only (lim : Z * Z) (x : list (R * R)) : list (R * R) := fft (null (0, 0) (fst lim) (snd lim) x).
Lemma block_plain src drw dw tol filters padlen n up k rows lim : drw = (-1)%Z -> (padlen (length rows) <= length rows)%nat -> rows <> [] -> (forall r, In r rows -> length r = n) -> limits src dw filters n k = Ok lim ->
  block src drw dw tol filters padlen up (k, rows) = Ok (k, if up then map (kept_only lim) rows else rows).
Proof.
  intros -> P NE L E. unfold block. cbn [fst snd]. assert (L0 : length (nth 0 rows []) = n) by (apply L, nth_In; destruct rows; [contradiction|cbn; lia]). rewrite L0.
  replace (forallb _ rows) with true by (symmetry; apply forallb_forall; intros r I; apply Nat.eqb_eq, L, I). cbn [negb]. destruct up; cbn [negb]; [|reflexivity].
  unfold rates. rewrite Z.eqb_refl. cbn [bind]. rewrite E. cbn [bind]. rewrite map_map. rewrite (unpad padlen (fun x => fft (null (0, 0) (fst lim) (snd lim) x)) rows P). reflexivity.
Qed.
(* each record gets the row of its own *)
Lemma emit_ok src extract (P : vis -> vis -> Prop) dat vs :
  (forall v, In v vs -> is_auto v = true -> P v v) ->
  (forall pre v post, vs = pre ++ v :: post -> is_auto v = false -> exists rows x y, get dat (place v) = Some rows /\ nth_error rows (length (filter (mine (place v)) pre)) = Some x /\ answer src false extract v x = Ok y /\ P v y) ->
  forall cnt rest pre, vs = pre ++ rest -> (forall k, match get cnt k with Some c => c | None => 0%nat end = length (filter (mine k) pre)) ->
  exists out, emit src false extract dat cnt rest = (out, true) /\ Forall2 P rest out.
Proof.
  intros HA HC cnt rest. revert cnt. induction rest as [|v rest IH]; intros cnt pre E CN; [exists []; split; [reflexivity|constructor]|].
  assert (E2 : vs = (pre ++ [v]) ++ rest) by (rewrite <- app_assoc; exact E).
  destruct (is_auto v) eqn:AU.
  - destruct (IH cnt (pre ++ [v]) E2) as (out & EO & F).
    { intros k. rewrite CN, filter_app, app_length. cbn [filter]. assert (MV : mine k v = false) by (unfold mine; rewrite AU; reflexivity). rewrite MV. cbn. lia. }
    exists (v :: out). split; [|constructor; [apply HA; [rewrite E; apply in_or_app; right; left; reflexivity|exact AU]|exact F]].
    destruct v as [[[[[t i] j] p] d] f]. cbn [emit]. cbn [is_auto] in AU. rewrite AU, EO. reflexivity.
  - destruct (HC pre v rest E AU) as (rows & x & y & G & N & A & PV). destruct (IH (count_up cnt (place v)) (pre ++ [v]) E2) as (out & EO & F).
    { intros k. rewrite get_count_up, CN, filter_app, app_length. cbn [filter]. assert (MV : mine k v = key_eqb (place v) k) by (unfold mine; rewrite AU; reflexivity). rewrite MV. destruct (key_eqb (place v) k); cbn; lia. }
    exists (y :: out). split; [|constructor; assumption]. specialize (CN (place v)). destruct v as [[[[[t i] j] p] d] f]. cbn [emit]. cbn [is_auto place] in *. rewrite AU, G, CN, N, A, EO. reflexivity.
Qed.
Lemma own_row {B} (h : vis -> B) k pre v post : mine k v = true -> nth_error (map h (filter (mine k) (pre ++ v :: post))) (length (filter (mine k) pre)) = Some (h v).
Proof.
  intros M. rewrite filter_app. cbn [filter]. rewrite M, map_app, nth_error_app2 by (rewrite map_length; lia). rewrite map_length, Nat.sub_diag. reflexivity.
Qed.
