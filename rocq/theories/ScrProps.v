(* C67: scripts/phs2src.py and flux_cal.py. *)
From Coq Require Import String Reals Lra.
From Verif Require Import Base UvModel UvSpec UvProofs UvProofs2 UvProofs3 UvProofs4 UvProofs5 UvProps
  PipeModel PipeSpec PipeProofs PipeProofs2 PipeProofs3 PipeProofs4 PipeProps BaselineModel BaselineProps CmdModel CmdSpec CmdProofs CmdProofs2 CmdProofs3 CmdProofs4 CmdProofs5 CmdProofs6 CmdProps ScrModel ScrProofs.
From Verif Require ArrModel CleanModel.
Ltac Zify.zify_post_hook ::= idtac.
Open Scope Z_scope.
Local Notation length := List.length.

(* As in C59: a data set of float visibilities, written by any history of calls, opened, read any
   number of times and given to the script. *)
(* phs2src: autocorrelations are unchanged; a cross-correlation is phased for its own polarisation,
   time and antennas; flags stay *)
Theorem C67_phs2src feq8 feq4 add1000 addf1000 junk fl2int active (setphs has_src : bool) (unphs offs turn : string -> list Z -> Z -> Z -> list (list Z) -> turned) (zeroed : list Z -> list Z) f0 f0' nsize ops hs ks :
  let f := if setphs then unphs else if has_src then turn else offs in
  host_ok feq8 feq4 add1000 TReal -> (forall a b, same4 feq4 a b -> fl2int a = fl2int b) ->
  (forall c : list Z, length c = 8%nat -> length (zeroed c) = 8%nat) ->
  (forall p i j t t', feq8 t t' = true -> f p t i j = f p t' i j) ->
  (forall p i j t s, i <> j -> spectrum nsize s -> match f p t i j s with Turned s' => spectrum nsize s' | Below => True | Raises => False end) ->
  valid feq8 feq4 add1000 addf1000 TReal nsize None [] [] ops -> plain nsize ops ->
  let ds := dataset TReal [] 0 ops in
  Forall (fun k => (k <= length ds)%nat) hs ->
  (forall d, In d ds -> exists p k i j, pairing fl2int mkbl d k i j /\ In (p, k) pol_names /\ active p = true) ->
  exists w, urun feq8 feq4 add1000 addf1000 junk TReal (uv_new TReal f0) ops = Ok w /\
  let r0 := fold_left rstep (sessions nsize hs) (uv_open w) in
  (same_members ks r0 ->
   exists w', script feq8 feq4 add1000 addf1000 junk (phs feq8 fl2int active setphs has_src unphs offs turn zeroed) (Ok tt) nsize r0 ks [] f0' None = Finished w' /\
     rewritten feq8 feq4 (fun d => d) (fun d y => forall p k i j, pairing fl2int mkbl d k i j -> In (p, k) pol_names ->
       if i =? j then unchanged (fst d) y else
       exists s, length s = Z.to_nat nsize /\ (forall c, 0 <= c < nsize -> nth (Z.to_nat c) s [] = chan (fst d) c) /\
       forall c, 0 <= c < r_n y -> good y c = good (fst d) c /\
         chan y c = match f p (r_t (fst d)) i j s with Turned s' => nth (Z.to_nat c) s' [] | _ => zeroed (chan (fst d) c) end) ds nsize w').
Proof.
  intros f H FS Z8 FT SP V PL ds HK HP.
  apply (all_rows_st feq8 feq4 add1000 addf1000 junk None f0 f0' nsize ops hs ks); [exact H|exact V|exact PL|exact HK|].
  intros cur d o Hd S. destruct (HP d Hd) as (p & k & i & j & P & K & AC). pose proof P as (P1 & P2).
  destruct (phs_one feq8 feq4 add1000 addf1000 junk fl2int FS active setphs has_src unphs offs turn zeroed nsize cur d o k p i j Z8 AC (FT p i j) (fun NE t s => SP p i j t s NE) S P1 K P2) as (x & y & s' & X1 & X2 & X3 & X4).
  exists x, y, s'. split; [exact X1|]. split; [exact X2|]. split; [exact X3|]. intros y' Y p' k' i' j' P' K'.
  destruct (pairing_fun fl2int d k i j k' i' j' P P') as (<- & <- & <-).
  assert (p' = p) by (apply pol2str_spec in K, K'; congruence). subst p'. specialize (X4 y' Y). destruct (i =? j); [exact X4|].
  exists (cells nsize (r_corr (fst d))). split; [apply cells_len|]. split; [|exact X4]. intros c Hc. apply cells_nth. lia.
Qed.
(* flux_cal: every channel is divided by the product of the factors asked for, or by one where it is zero; flags stay *)
Theorem C67_flux_cal feq8 feq4 add1000 addf1000 junk fl2int active cmul cdiv ciszero one (passband beam srcflux : bool) pb resp (spec : list Z -> list (list Z)) f0 f0' nsize ops hs ks :
  host_ok feq8 feq4 add1000 TReal -> (forall a b, same4 feq4 a b -> fl2int a = fl2int b) -> op8 cmul -> op8 cdiv -> length one = 8%nat ->
  (forall p i j t t', feq8 t t' = true -> resp p t i j = resp p t' i j) -> (forall t t', feq8 t t' = true -> spec t = spec t') ->
  (beam = true -> srcflux = true) ->
  (forall p i j, spectrum nsize (pb p i j)) -> (forall t, spectrum nsize (spec t)) ->
  valid feq8 feq4 add1000 addf1000 TReal nsize None [] [] ops -> plain nsize ops ->
  let ds := dataset TReal [] 0 ops in
  Forall (fun k => (k <= length ds)%nat) hs ->
  (forall d, In d ds -> exists p k i j, pairing fl2int mkbl d k i j /\ In (p, k) pol_names /\ active p = true /\
     (beam = true -> exists b, resp p (r_t (fst d)) i j = Some b /\ spectrum nsize b)) ->
  exists w, urun feq8 feq4 add1000 addf1000 junk TReal (uv_new TReal f0) ops = Ok w /\
  let r0 := fold_left rstep (sessions nsize hs) (uv_open w) in
  (same_members ks r0 ->
   exists w', script feq8 feq4 add1000 addf1000 junk (flux_cal feq8 fl2int active cmul cdiv ciszero one passband beam srcflux pb resp spec) (Ok tt) nsize r0 ks [] f0' None = Finished w' /\
     rewritten feq8 feq4 (fun d => d) (fun d y => forall p k i j, pairing fl2int mkbl d k i j -> In (p, k) pol_names ->
       forall c, 0 <= c < r_n y -> good y c = good (fst d) c /\
         exists g, chan y c = cdiv (chan (fst d) c) (if ciszero g then one else g) /\
           let a := nth (Z.to_nat c) (pb p i j) [] in let b := nth (Z.to_nat c) (match resp p (r_t (fst d)) i j with Some b => b | None => [] end) [] in
           let s := nth (Z.to_nat c) (spec (r_t (fst d))) [] in
           g = match passband, beam, srcflux with
               | false, false, false => one | true, false, false => a | false, false, true => s | true, false, true => cmul a s
               | false, true, false => b | true, true, false => cmul a b | false, true, true => cmul b s | true, true, true => cmul (cmul a b) s
               end) ds nsize w').
Proof.
  intros H FS O8 D8 L1 RT ST BS SPB SSP V PL ds HK HP.
  apply (all_rows_st feq8 feq4 add1000 addf1000 junk None f0 f0' nsize ops hs ks); [exact H|exact V|exact PL|exact HK|].
  intros cur d o Hd S. destruct (HP d Hd) as (p & k & i & j & P & K & AC & BM). pose proof P as (P1 & P2).
  assert (X : exists bm, (if beam then exists b, bm = Some b /\ resp p (r_t (fst d)) i j = Some b /\ spectrum nsize b else bm = None)).
  { destruct beam; [|exists None; reflexivity]. destruct (BM eq_refl) as (b & B1 & B2). exists (Some b). eauto. }
  destruct X as (bm & B).
  destruct (flux_one feq8 feq4 add1000 addf1000 fl2int FS active cmul cdiv ciszero one passband beam srcflux pb resp spec nsize cur d o k p i j bm O8 D8 L1 AC (RT p i j) ST BS B (SPB p i j) (SSP _) S P1 K P2) as (x & y & s' & X1 & X2 & X3 & X4).
  exists x, y, s'. split; [exact X1|]. split; [exact X2|]. split; [exact X3|]. intros y' Y p' k' i' j' P' K'.
  destruct (pairing_fun fl2int d k i j k' i' j' P P') as (<- & <- & <-).
  assert (p' = p) by (apply pol2str_spec in K, K'; congruence). subst p'. intros c Hc. destruct (X4 y' Y c Hc) as [G C]. split; [exact G|]. eexists. split; [exact C|]. cbv zeta. unfold gain_at.
  destruct beam; [destruct B as (b & -> & -> & _)|subst bm]; destruct passband, srcflux; reflexivity.
Qed.
(* runs: x_src has two autocorrelations of polarisation xx and two cross-correlations of yy, as in C59 *)
Definition x_zeroed (c : list Z) : list Z := dbl 0.
Definition x_turn (p : string) (t : list Z) (i j : Z) (s : list (list Z)) : turned :=
  if hd 0 t =? 11 then Below else Turned (map (fun c => x_add c (dbl (j + hd 0 t))) s).
Definition x_off (p : string) (t : list Z) (i j : Z) (s : list (list Z)) : turned := Turned (map (fun c => x_add c (dbl 2)) s).
Definition x_unphs (p : string) (t : list Z) (i j : Z) (s : list (list Z)) : turned := Turned (map (fun c => dbl (hd 0 c)) s).
Definition x_active (p : string) : bool := negb (String.eqb p "yx").
Example C67_phs_run : x_shown (x_script (phs list_eqb x_int x_active false true x_unphs x_off x_turn x_zeroed) x_src None) 5 =
  Some
  [Some (10, [[41; 31]; [43; 33]], [true; false], -5);
  Some (10, [[40; 41]; [42; 43]], [true; false], -6);
  Some (11, [[0; 0]; [0; 0]], [true; false], -6);
  Some (11, [[60; 61]; [62; 63]], [true; false], -5); None].
Proof. vm_compute. reflexivity. Qed.
Example C67_offs_run : x_shown (x_script (phs list_eqb x_int x_active false false x_unphs x_off x_turn x_zeroed) x_src None) 5 =
  Some
  [Some (10, [[32; 31]; [34; 33]], [true; false], -5);
  Some (10, [[40; 41]; [42; 43]], [true; false], -6);
  Some (11, [[52; 51]; [54; 53]], [true; false], -6);
  Some (11, [[60; 61]; [62; 63]], [true; false], -5); None].
Proof. vm_compute. reflexivity. Qed.
Example C67_set_run : x_shown (x_script (phs list_eqb x_int x_active true true x_unphs x_off x_turn x_zeroed) x_src None) 5 =
  Some
  [Some (10, [[30; 0]; [32; 0]], [true; false], -5);
  Some (10, [[40; 41]; [42; 43]], [true; false], -6);
  Some (11, [[50; 0]; [52; 0]], [true; false], -6);
  Some (11, [[60; 61]; [62; 63]], [true; false], -5); None].
Proof. vm_compute. reflexivity. Qed.
Example C67_flux_run : x_shown (x_script (flux_cal list_eqb x_int x_active x_add x_sub (fun c => hd 0 c =? 7) (dbl 1) true true true (fun _ _ j => [dbl j; dbl 2]) (fun _ t _ _ => Some [dbl 3; dbl 4]) (fun t => [dbl 2; dbl 1])) x_src None) 5 =
  Some
  [Some (10, [[24; 31]; [31; 33]], [true; false], -5);
  Some (10, [[35; 41]; [41; 43]], [true; false], -6);
  Some (11, [[44; 51]; [51; 53]], [true; false], -6);
  Some (11, [[55; 61]; [61; 63]], [true; false], -5); None].
Proof. vm_compute. reflexivity. Qed.

(* which source is used *)
Theorem C67_source {A} opt (cat : list A) : choose_source true opt cat =
  match opt with
  | None => Ok NoSource
  | Some n => if String.prefix "zen" n then Ok Zenith else match cat with s :: _ => Ok (Named s) | [] => Err end
  end.
Proof.
  unfold choose_source. destruct opt as [n|]; [|reflexivity].
  assert (E : String.eqb (substring 0 3 n) "zen" = String.prefix "zen" n).
  { assert (D : forall x y, Ascii.eqb y x = if Ascii.ascii_dec x y then true else false)
      by (intros x y; destruct (Ascii.ascii_dec x y) as [<-|N]; [apply Ascii.eqb_refl|apply Ascii.eqb_neq; congruence]).
    destruct n as [|a [|b [|c n]]]; cbn [substring String.eqb String.prefix]; rewrite ?D; try (destruct n as [|? n]); cbn [substring String.eqb String.prefix]; try reflexivity; repeat (destruct (Ascii.ascii_dec _ _); try reflexivity). }
  rewrite E. destruct (String.prefix "zen" n); [reflexivity|]. destruct cat; reflexivity.
Qed.
Example C67_source_ex : choose_source true (Some "zenith"%string) [1; 2] = Ok Zenith /\ choose_source true (Some "cyg"%string) [1; 2] = Ok (Named 1) /\
  choose_source true None [1; 2] = Ok NoSource /\ choose_source true (Some "cyg"%string) (@nil Z) = Err /\ choose_source true (Some "ze"%string) [3] = Ok (Named 3).
Proof. repeat split. Qed.
(* finding: under Python 3 values() of a catalogue cannot be subscripted: no named source can be used *)
Theorem C67_named_refuted {A} n (cat : list A) : String.prefix "zen" n = false -> choose_source false (Some n) cat = Err.
Proof.
  intros H. generalize (C67_source (Some n) cat). unfold choose_source. cbv beta iota. destruct (String.eqb (substring 0 3 n) "zen"); [|intros _; reflexivity].
  rewrite H. destruct cat; discriminate.
Qed.

(* finding: a source below the horizon is written as zeros that are not flagged *)
Theorem C67_below_refuted feq8 feq4 add1000 addf1000 junk fl2int active unphs offs (zeroed : list Z -> list Z) f0 f0' nsize ops hs ks :
  host_ok feq8 feq4 add1000 TReal -> (forall a b, same4 feq4 a b -> fl2int a = fl2int b) ->
  (forall c : list Z, length c = 8%nat -> length (zeroed c) = 8%nat) ->
  valid feq8 feq4 add1000 addf1000 TReal nsize None [] [] ops -> plain nsize ops ->
  let ds := dataset TReal [] 0 ops in
  Forall (fun k => (k <= length ds)%nat) hs ->
  (forall d, In d ds -> exists p k i j, pairing fl2int mkbl d k i j /\ In (p, k) pol_names /\ active p = true /\ i <> j) ->
  exists w, urun feq8 feq4 add1000 addf1000 junk TReal (uv_new TReal f0) ops = Ok w /\
  let r0 := fold_left rstep (sessions nsize hs) (uv_open w) in
  (same_members ks r0 ->
   exists w', script feq8 feq4 add1000 addf1000 junk (phs feq8 fl2int active false true unphs offs (fun _ _ _ _ _ => Below) zeroed) (Ok tt) nsize r0 ks [] f0' None = Finished w' /\
     rewritten feq8 feq4 (fun d => d) (fun d y => forall c, 0 <= c < r_n y -> good y c = good (fst d) c /\ chan y c = zeroed (chan (fst d) c)) ds nsize w').
Proof.
  intros H FS Z8 V PL ds HK HP.
  apply (all_rows_st feq8 feq4 add1000 addf1000 junk None f0 f0' nsize ops hs ks); [exact H|exact V|exact PL|exact HK|].
  intros cur d o Hd S. destruct (HP d Hd) as (p & k & i & j & (P1 & P2) & K & AC & NE).
  destruct (phs_one feq8 feq4 add1000 addf1000 junk fl2int FS active false true unphs offs (fun _ _ _ _ _ => Below) zeroed nsize cur d o k p i j Z8 AC (fun _ _ _ => eq_refl) (fun _ _ _ _ => I) S P1 K P2) as (x & y & s' & X1 & X2 & X3 & X4).
  exists x, y, s'. split; [exact X1|]. split; [exact X2|]. split; [exact X3|]. intros y' Y. specialize (X4 y' Y). apply Z.eqb_neq in NE. rewrite NE in X4. exact X4.
Qed.

(* finding: -b without -f fails at the first record of every data set: the script writes nothing *)
Theorem C67_beam_alone_refuted feq8 feq4 add1000 addf1000 junk fl2int active cmul cdiv ciszero one (passband : bool) pb resp spec f0 f0' nsize ops hs ks :
  host_ok feq8 feq4 add1000 TReal ->
  valid feq8 feq4 add1000 addf1000 TReal nsize None [] [] ops -> plain nsize ops ->
  let ds := dataset TReal [] 0 ops in
  Forall (fun k => (k <= length ds)%nat) hs ->
  exists w, urun feq8 feq4 add1000 addf1000 junk TReal (uv_new TReal f0) ops = Ok w /\
  let r0 := fold_left rstep (sessions nsize hs) (uv_open w) in
  (same_members ks r0 ->
   exists w', script feq8 feq4 add1000 addf1000 junk (flux_cal feq8 fl2int active cmul cdiv ciszero one passband true false pb resp spec) (Ok tt) nsize r0 ks [] f0' None = Raised w').
Proof.
  intros H V PL ds HK.
  assert (E : forall cur r x, flux_cal feq8 fl2int active cmul cdiv ciszero one passband true false pb resp spec cur r x = Err).
  { intros cur r x. unfold flux_cal. destruct (uv_pol r); [|reflexivity]. cbn [bind]. destruct (pol2str str2pol _); [|reflexivity]. cbn [bind]. destruct (active _); reflexivity. }
  destruct (rewrite_main feq8 feq4 add1000 addf1000 junk f0 f0' nsize ops hs ks [] H V PL HK) as (w & E1 & out & last & R & SR & M). fold ds in R, M, SR.
  exists w. split; [exact E1|]. intros r0 SM. destruct M as (w' & M1 & _); [exact SM|intros [|i] y; discriminate|].
  specialize (M1 _ (flux_cal feq8 fl2int active cmul cdiv ciszero one passband true false pb resp spec) None).
  destruct PL as (NE & _). fold ds in NE. clearbody ds. revert NE M1. clear -SR E. destruct SR as [|d [r o] ds' out (x & X & _)]; intros NE M1; [destruct (NE eq_refl)|]. cbn [snd] in X. subst o.
  cbn [steps fst snd length] in M1. rewrite E in M1. cbn [fst snd length] in M1. apply M1. intros i Hi. inversion Hi.
Qed.

(* finding: with no source the script is to remove the phase offset, but its factor undoes half of it *)
Theorem C67_half_offset_refuted o :
  CleanModel.cmul (offset_factor o) (offset_factor o) = ArrModel.cexp_turn o /\
  (offset_factor o = ArrModel.cexp_turn o <-> exists k : Z, o = (2 * IZR k)%R).
Proof.
  unfold offset_factor, ArrModel.cexp_turn. assert (T : (2 * PI * o = 2 * (PI * o))%R) by ring. rewrite T. split.
  - unfold CleanModel.cmul. cbn [fst snd]. rewrite cos_2a, sin_2a. f_equal; ring.
  - split.
    + intros E. injection E as E1 E2. set (x := (PI * o)%R) in *.
      assert (A : (cos x = 1)%R).
      { pose proof (cos_minus (2 * x) x) as A. replace (2 * x - x)%R with x in A by ring. rewrite <- E1 in A at 1.
        assert (B : sin (2 * x) = sin x) by lra. rewrite B in A. pose proof (sin2_cos2 x) as D. unfold Rsqr in D. rewrite A. lra. }
      assert (B : (sin (x / 2) = 0)%R).
      { pose proof (cos_2a_sin (x / 2)) as B. replace (2 * (x / 2))%R with x in B by field. rewrite A in B. apply Rsqr_0_uniq. unfold Rsqr. lra. }
      apply sin_eq_0_0 in B as [k B]. exists k. unfold x in B. pose proof PI_RGT_0. apply (Rmult_eq_reg_l PI); lra.
    + intros [k ->]. assert (A : forall m : Z, cos (PI * (2 * IZR m)) = 1%R /\ sin (PI * (2 * IZR m)) = 0%R).
      { intros m. replace (PI * (2 * IZR m))%R with (2 * (IZR m * PI))%R by ring.
        assert (Z : sin (IZR m * PI) = 0%R) by (apply sin_eq_0_1; exists m; reflexivity). rewrite cos_2a_sin, sin_2a, Z. split; ring. }
      replace (2 * (PI * (2 * IZR k)))%R with (PI * (2 * IZR (2 * k)))%R by (rewrite mult_IZR; ring).
      destruct (A k) as [-> ->], (A (2 * k)) as [-> ->]. reflexivity.
Qed.
Print Assumptions C67_phs2src.
Print Assumptions C67_flux_cal.
Print Assumptions C67_source.
Print Assumptions C67_named_refuted.
Print Assumptions C67_below_refuted.
Print Assumptions C67_beam_alone_refuted.
Print Assumptions C67_half_offset_refuted.
