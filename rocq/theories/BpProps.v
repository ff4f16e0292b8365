(* C71: scripts/apply_bp.py. *)
From Coq Require Import String Reals Lra.
From Verif Require Import Base UvModel UvSpec UvProofs UvProofs2 UvProofs3 UvProofs4 UvProofs5 UvProps
  PipeModel PipeSpec PipeProofs PipeProofs2 PipeProofs3 PipeProofs4 PipeProps HdrModel
  BaselineModel BaselineProps CmdModel CmdSpec CmdProofs CmdProofs2 CmdProofs3 CmdProofs4 CmdProofs5 CmdProofs6 CmdProps ScrModel ScrProofs BpModel BpSpec BpProofs.
Ltac Zify.zify_post_hook ::= idtac.
Open Scope Z_scope.
Local Notation length := List.length.

Section C71.
Context {G D : Type} (one : G) (gmul : G -> G -> G) (number : Z -> G).
Variables (feq8 feq4 : list Z -> list Z -> bool) (add1000 addf1000 : list Z -> list Z) (junk : list Z) (fl2int : list Z -> Z).
Variables (linear dbl : list Z -> D) (dmul : D -> G -> D) (sgl : D -> list Z).
Hypothesis HO : host_ok feq8 feq4 add1000 TReal.
Hypothesis FS : forall a b, same4 feq4 a b -> fl2int a = fl2int b.
Hypothesis S8 : forall z, length (sgl z) = 8%nat.
Notation run bp scale nsize r ks f0 := (script feq8 feq4 add1000 addf1000 junk (apply_bp gmul fl2int linear dbl dmul sgl bp scale) (Ok tt) nsize r ks [] f0 tt).
(* what becomes of a record: g antenna channel is the bandpass *)
Definition gained (g : nat -> nat -> G) (scale : G) (d : row) (y : urec) : Prop := forall i j, of_pair fl2int mkbl (fst d) i j ->
  forall c, 0 <= c < r_n y -> good y c = good (fst d) c /\
  chan y c = sgl (dmul (if i =? j then linear (chan (fst d) c) else dbl (chan (fst d) c)) (gmul (gmul (g (Z.to_nat i) (Z.to_nat c)) (g (Z.to_nat j) (Z.to_nat c))) scale)).

Lemma of_pair_fun x i j i' j' : of_pair fl2int mkbl x i j -> of_pair fl2int mkbl x i' j' -> i = i' /\ j = j'.
Proof.
  intros (I & J & E) (I' & J' & E'). destruct (C02_layers_agree i j I J) as (A1 & A2 & _). destruct (C02_layers_agree i' j' I' J') as (B1 & B2 & _).
  rewrite <- E in A1, A2. rewrite <- E' in B1, B2. split; congruence.
Qed.
Lemma gained_run bp n g scale f0 f0' nsize ops hs ks : (0 < nsize -> table_is bp n (Z.to_nat nsize) g) ->
  valid feq8 feq4 add1000 addf1000 TReal nsize None [] [] ops -> plain nsize ops ->
  let ds := dataset TReal [] 0 ops in
  Forall (fun k => (k <= length ds)%nat) hs ->
  (forall d, In d ds -> exists i j, of_pair fl2int mkbl (fst d) i j /\ i < Z.of_nat n /\ j < Z.of_nat n) ->
  exists w, urun feq8 feq4 add1000 addf1000 junk TReal (uv_new TReal f0) ops = Ok w /\
  let r0 := fold_left rstep (sessions nsize hs) (uv_open w) in
  (same_members ks r0 -> exists w', run bp scale nsize r0 ks f0' = Finished w' /\ rewritten feq8 feq4 (fun d => d) (gained g scale) ds nsize w').
Proof.
  intros T V PL ds HK HP. apply (all_rows_st feq8 feq4 add1000 addf1000 junk tt f0 f0' nsize ops hs ks); [exact HO|exact V|exact PL|exact HK|].
  intros [] d o Hd S. destruct (HP d Hd) as (i & j & P & I & J). pose proof P as (Pi & Pj & _).
  assert (NP : 0 < nsize) by (destruct S as (x & _ & _ & X3 & X4 & _); apply (good_parts _ _ X3 X4)).
  destruct (bp_one feq8 feq4 gmul fl2int linear dbl dmul sgl FS S8 nsize bp scale n g d o i j (T NP) ltac:(lia) ltac:(lia) S P) as (x & y & X1 & X2 & X3 & X4).
  exists x, y, tt. split; [exact X1|]. split; [exact X2|]. split; [exact X3|]. intros y' Y i' j' P'. destruct (of_pair_fun _ _ _ _ _ P P') as [<- <-]. exact (X4 y' Y).
Qed.

(* with a bandpass in the header: every channel times the bandpass of both antennas in that channel and
   the scale; of the autocorrelations, what the polynomial gives is. Flags and the rest are kept. *)
Theorem C71_applied item n g scale f0 f0' nsize ops hs ks : holds number item n (Z.to_nat nsize) g ->
  valid feq8 feq4 add1000 addf1000 TReal nsize None [] [] ops -> plain nsize ops ->
  let ds := dataset TReal [] 0 ops in
  Forall (fun k => (k <= length ds)%nat) hs ->
  (forall d, In d ds -> exists i j, of_pair fl2int mkbl (fst d) i j /\ i < Z.of_nat n /\ j < Z.of_nat n) ->
  exists w, urun feq8 feq4 add1000 addf1000 junk TReal (uv_new TReal f0) ops = Ok w /\
  let r0 := fold_left rstep (sessions nsize hs) (uv_open w) in
  (same_members ks r0 -> exists w', run (bandpass one number (Ok (Some item)) n (Z.to_nat nsize)) scale nsize r0 ks f0' = Finished w' /\
     rewritten feq8 feq4 (fun d => d) (gained g scale) ds nsize w').
Proof.
  intros H V PL ds HK HP. apply gained_run with (n := n); try assumption. intros NP. apply held_table; [lia|exact H].
Qed.
(* without one: times the scale alone *)
Theorem C71_no_bandpass n scale f0 f0' nsize ops hs ks :
  valid feq8 feq4 add1000 addf1000 TReal nsize None [] [] ops -> plain nsize ops ->
  let ds := dataset TReal [] 0 ops in
  Forall (fun k => (k <= length ds)%nat) hs ->
  (forall d, In d ds -> exists i j, of_pair fl2int mkbl (fst d) i j /\ i < Z.of_nat n /\ j < Z.of_nat n) ->
  exists w, urun feq8 feq4 add1000 addf1000 junk TReal (uv_new TReal f0) ops = Ok w /\
  let r0 := fold_left rstep (sessions nsize hs) (uv_open w) in
  (same_members ks r0 -> exists w', run (bandpass one number (Ok None) n (Z.to_nat nsize)) scale nsize r0 ks f0' = Finished w' /\
     rewritten feq8 feq4 (fun d => d) (gained (fun _ _ => one) scale) ds nsize w').
Proof. intros V PL ds HK HP. apply gained_run with (n := n); try assumption. intros _. apply ones_table. Qed.
(* a finding: a bandpass that is not of nants times nchan numbers, or that cannot be read, is left out
   and the data are written as if there were none *)
Theorem C71_other_size_refuted item n scale f0 f0' nsize ops hs ks :
  (forall l, item = Ok (Some (Seq l)) -> length l <> (n * Z.to_nat nsize)%nat \/ exists e, In e l /\ forall re im, e <> ECplx re im) ->
  valid feq8 feq4 add1000 addf1000 TReal nsize None [] [] ops -> plain nsize ops ->
  let ds := dataset TReal [] 0 ops in
  Forall (fun k => (k <= length ds)%nat) hs ->
  (forall d, In d ds -> exists i j, of_pair fl2int mkbl (fst d) i j /\ i < Z.of_nat n /\ j < Z.of_nat n) ->
  exists w, urun feq8 feq4 add1000 addf1000 junk TReal (uv_new TReal f0) ops = Ok w /\
  let r0 := fold_left rstep (sessions nsize hs) (uv_open w) in
  (same_members ks r0 -> exists w', run (bandpass one number item n (Z.to_nat nsize)) scale nsize r0 ks f0' = Finished w' /\
     rewritten feq8 feq4 (fun d => d) (gained (fun _ _ => one) scale) ds nsize w').
Proof. intros H V PL ds HK HP. apply gained_run with (n := n); try assumption. intros _. rewrite no_table by exact H. apply ones_table. Qed.
(* a finding: antennas are rows of the table by their number: the first record of an antenna whose
   number is not below nants stops the run *)
Theorem C71_antenna_number_refuted item n scale f0 f0' nsize ops hs ks :
  valid feq8 feq4 add1000 addf1000 TReal nsize None [] [] ops -> plain nsize ops ->
  let ds := dataset TReal [] 0 ops in
  Forall (fun k => (k <= length ds)%nat) hs ->
  (forall d r, ds = d :: r -> exists i j, of_pair fl2int mkbl (fst d) i j /\ (Z.of_nat n <= i \/ Z.of_nat n <= j)) ->
  exists w, urun feq8 feq4 add1000 addf1000 junk TReal (uv_new TReal f0) ops = Ok w /\
  let r0 := fold_left rstep (sessions nsize hs) (uv_open w) in
  (same_members ks r0 -> exists w', run (bandpass one number item n (Z.to_nat nsize)) scale nsize r0 ks f0' = Raised w').
Proof.
  intros V PL ds HK HF.
  destruct (rewrite_main feq8 feq4 add1000 addf1000 junk f0 f0' nsize ops hs ks [] HO V PL HK) as (w & E1 & out & last & R & SR & M). fold ds in R, M, SR.
  exists w. split; [exact E1|]. intros r0 SM. destruct M as (w' & M1 & _); [exact SM|intros [|i] y; discriminate|].
  specialize (M1 _ (apply_bp gmul fl2int linear dbl dmul sgl (bandpass one number item n (Z.to_nat nsize)) scale) tt).
  destruct PL as (NE & _). fold ds in NE. clearbody ds. destruct SR as [|d [r o] ds' out S SR]; [destruct (NE eq_refl)|].
  destruct (HF d ds' eq_refl) as (i & j & P & B). destruct S as (x & X & X2 & _). cbn [snd] in X. subst o.
  destruct (ants_read feq8 feq4 fl2int FS d x i j X2 P) as (A1 & A2).
  assert (L : length (bandpass one number item n (Z.to_nat nsize)) = n).
  { unfold bandpass. destruct item as [[[e|l|t]|]|]; try apply repeat_length. destruct (reals number l); [|apply repeat_length]. destruct (Nat.eqb _ _); [apply rows_len|apply repeat_length]. }
  assert (E : apply_bp gmul fl2int linear dbl dmul sgl (bandpass one number item n (Z.to_nat nsize)) scale tt r x = Err).
  { unfold apply_bp. rewrite A1, A2. destruct (nth_error _ (Z.to_nat i)) eqn:E1'; [|reflexivity]. destruct (nth_error _ (Z.to_nat j)) eqn:E2'; [|reflexivity].
    exfalso. assert (Z.to_nat i < n)%nat by (rewrite <- L; apply nth_error_Some; congruence). assert (Z.to_nat j < n)%nat by (rewrite <- L; apply nth_error_Some; congruence). lia. }
  cbn [steps fst snd length] in M1. rewrite E in M1. cbn [fst snd length] in M1. apply M1. intros k Hk. inversion Hk.
Qed.
(* a finding: of one antenna and one channel the bandpass is never applied: a header item of one
   number is read as the number *)
Theorem C71_one_number_refuted e : bandpass one number (Ok (Some (Scalar e))) 1 1 = [[one]].
Proof. reflexivity. Qed.
End C71.

(* every linearization keeps the number ten; null changes no number; no others are known *)
Theorem C71_linearization digi full opt : length digi = 7%nat -> length full = 7%nat -> value digi 10 <> 0%R -> value full 10 <> 0%R ->
  match cpoly digi full opt with
  | Ok p => In opt ["null"; "digi"; "full"; "comb"]%string /\ cpolyval p (10, 0)%R = (10, 0)%R /\ (opt = "null"%string -> forall z, cpolyval p z = z) /\
      forall x, cpolyval p (x, 0)%R = (value p x, 0)%R
  | Err => ~ In opt ["null"; "digi"; "full"; "comb"]%string
  end.
Proof.
  intros L1 L2 D F. unfold cpoly.
  assert (N : forall z, cpolyval null_cpoly z = z).
  { intros [x y]. unfold cpolyval, null_cpoly. cbn [fold_left fst snd]. f_equal; ring. }
  destruct (String.eqb_spec opt "null") as [->|N1].
  { split; [cbn; auto|]. split; [apply N|]. split; [intros _; exact N|]. intros x. apply cpolyval_real. }
  destruct (String.eqb_spec opt "digi") as [->|N2].
  { split; [cbn; auto|]. split; [rewrite cpolyval_real, normal_10 by exact D; reflexivity|]. split; [discriminate|]. intros x. apply cpolyval_real. }
  destruct (String.eqb_spec opt "full") as [->|N3].
  { split; [cbn; auto|]. split; [rewrite cpolyval_real, normal_10 by exact F; reflexivity|]. split; [discriminate|]. intros x. apply cpolyval_real. }
  destruct (String.eqb_spec opt "comb") as [->|N4].
  { split; [cbn; auto|]. split; [|split; [discriminate|intros x; apply cpolyval_real]]. rewrite cpolyval_real. f_equal.
    assert (LF : length (vadd null_cpoly (normal full)) = length (normal digi)) by (rewrite vadd_len; rewrite ?normal_len, ?L1, ?L2; reflexivity).
    rewrite value_div, value_vadd by exact LF. rewrite value_vadd by (rewrite normal_len, L2; reflexivity). rewrite !normal_10 by assumption.
    unfold null_cpoly. cbn [value length pow]. field. }
  cbn. intros [H|[H|[H|[H|[]]]]]; congruence.
Qed.
(* comb is the mean of the three others *)
Theorem C71_comb digi full p x : length digi = 7%nat -> length full = 7%nat -> cpoly digi full "comb" = Ok p ->
  value p x = ((x + value digi x * (10 / value digi 10) + value full x * (10 / value full 10)) / 3)%R.
Proof.
  intros L1 L2 E. assert (p = map (fun c => c / 3)%R (vadd (vadd null_cpoly (normal full)) (normal digi))) as -> by (unfold cpoly in E; cbn [String.eqb Ascii.eqb Bool.eqb] in E; congruence). rewrite value_div.
  assert (LF : length (vadd null_cpoly (normal full)) = length (normal digi)) by (rewrite vadd_len; rewrite ?normal_len, ?L1, ?L2; reflexivity).
  rewrite value_vadd by exact LF. rewrite value_vadd by (rewrite normal_len, L2; reflexivity).
  assert (NV : forall q, value (normal q) x = (value q x * (10 / value q 10))%R) by (intros q; unfold normal; rewrite value_scale, polyval_value; ring).
  rewrite !NV. unfold null_cpoly. cbn [value length pow]. f_equal. ring.
Qed.

(* a bandpass of two antennas and two channels *)
Example C71_table : exists g, holds (fun z : Z => z) (Seq [ECplx 1 9; ECplx 2 9; ECplx 3 9; ECplx 4 9]) 2 2 g /\ g 1%nat 0%nat = 3 /\
  bandpass 7 (fun z => z) (Ok (Some (Seq [ECplx 1 9; ECplx 2 9; ECplx 3 9; ECplx 4 9]))) 2 2 = [[1; 2]; [3; 4]].
Proof.
  exists (fun i c => Z.of_nat (2 * i + c) + 1). split; [|split; reflexivity]. eexists. split; [reflexivity|]. split; [reflexivity|].
  intros i c I C. destruct i as [|[|i]]; [| |lia]; (destruct c as [|[|c]]; [| |lia]); eexists; eexists; split; reflexivity.
Qed.
Print Assumptions C71_applied. Print Assumptions C71_no_bandpass. Print Assumptions C71_linearization. Print Assumptions C71_comb.
Print Assumptions C71_other_size_refuted. Print Assumptions C71_antenna_number_refuted. Print Assumptions C71_one_number_refuted.
