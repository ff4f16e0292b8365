From Verif Require Import Base.
From Verif Require Import PackModel PackSpec PackProofs HioModel TreeModel TreeProofs TreeProofs2.
From Coq Require Import String Ascii.
From Verif Require Import UvModel UvSpec UvProps HdrModel CrashModel CrashSpec CrashProofs CrashProofs2 CrashProofs3.
Ltac Zify.zify_post_hook ::= idtac.
Open Scope Z_scope.
Open Scope list_scope.
Local Notation length := List.length.

(* The table of variables comes back from the item it is kept in. *)
Theorem C50_vartable_roundtrip vs :
  NoDup (map w_name vs) -> Forall (fun v => plain (w_name v) /\ (String.length (w_name v) <= 8)%nat) vs ->
  vt_in (vt_out vs) = Ok (map (fun v => RV (w_name v) (w_ty v) 0 None 0) vs).
Proof. intros H1 H2. apply (vt_in_out vs). split; assumption. Qed.

(* A name with a blank in it is cut off at the blank, so it is lost. *)
Theorem C50_blank_name_refuted :
  exists vs, NoDup (map w_name vs) /\ Forall (fun v => (String.length (w_name v) <= 8)%nat) vs /\
    vt_in (vt_out vs) = Ok [RV "a"%string TReal 0 None 0] /\ map w_name vs = ["a b"%string].
Proof.
  exists [WV "a b"%string TReal 4 None false 0]. split; [repeat constructor; intros []|].
  split; [repeat constructor|]. split; reflexivity.
Qed.

(* ... and so is every name with white space in it other than a newline *)
Theorem C50_blank_name_cut a b rest t : plain a -> (String.length a <= 8)%nat ->
  In (nat_of_ascii b) [9; 11; 12; 13; 32]%nat -> Forall (fun c => nat_of_ascii c <> 10%nat) (list_ascii_of_string rest) ->
  forall x n d k, vt_in (vt_out [WV (a ++ String b rest) t x n d k]) = Ok [RV a t 0 None 0].
Proof.
  intros PA LA B R x n d k. destruct (plain_codes a PA) as [NE PR].
  assert (CA : forall u v, codes (u ++ v) = codes u ++ codes v).
  { induction u as [|c u IH]; intros v; cbn; [reflexivity|]. f_equal. apply IH. }
  unfold vt_in, vt_out. cbn [flat_map w_name]. rewrite app_nil_r. unfold vt_line. cbn [w_ty w_name].
  rewrite CA. set (z := Z.of_N (N_of_ascii b)).
  assert (CB : codes (String b rest) = z :: codes rest) by reflexivity.
  assert (ZN : z = Z.of_nat (nat_of_ascii b)) by (unfold z, nat_of_ascii; lia).
  assert (BZ : blank z = true) by (rewrite ZN; cbn [In] in B; destruct B as [<-|[<-|[<-|[<-|[<-|[]]]]]]; reflexivity).
  assert (NZ : z <> 10) by ( cbn [In] in B; lia).
  assert (NR : Forall (fun c => c <> 10) (codes rest)).
  { clear -R. unfold codes. rewrite Forall_map. eapply Forall_impl; [|exact R]. cbn. intros c H. unfold nat_of_ascii in H. lia. }
  rewrite CB.
  assert (L : lines [] ((tychar t :: 32 :: codes a ++ z :: codes rest) ++ 10 :: []) = [tychar t :: 32 :: codes a ++ z :: codes rest]).
  { rewrite lines_app; [reflexivity|]. constructor; [destruct t; discriminate|]. constructor; [discriminate|].
    apply Forall_app. split; [eapply Forall_impl; [|exact PR]; cbn; intros; lia|]. constructor; auto. }
  cbn [app] in L |- *. rewrite <- app_assoc. rewrite <- app_assoc in L. cbn [app] in L |- *. rewrite L. cbn [vt_vars]. unfold vt_var.
  assert (SK : skip_blank (32 :: codes a ++ z :: codes rest) = codes a ++ z :: codes rest).
  { cbn [skip_blank blank Z.eqb Z.leb Z.compare orb andb]. change (blank 32) with true. cbv iota. destruct (codes a) as [|c l] eqn:E; [congruence|].
    inversion PR; subst. cbn [app skip_blank]. destruct (blank_printable c H1) as [-> _]. reflexivity. }
  assert (W : word (codes a ++ z :: codes rest) = codes a).
  { clear -PR BZ. induction PR as [|c l H F IH]; cbn [app word]; [now rewrite BZ|].
    destruct (blank_printable c H) as [-> ->]. cbn [orb]. now rewrite IH. }
  rewrite SK, W, tychar_ty. destruct (codes a) as [|c l] eqn:E; [congruence|]. rewrite <- E.
  cbn [find_name]. rewrite codes_len. destruct (8 <? String.length a)%nat eqn:Q; [apply Nat.ltb_lt in Q; lia|].
  rewrite uncodes_codes. reflexivity.
Qed.

(* A table whose final newline is missing reads the same. *)
Theorem C50_vartable_last_line vs text : vt_out vs = text ++ [10] -> text <> [] -> last text 0 <> 10 -> vt_in text = vt_in (vt_out vs).
Proof.
  intros -> NE NL. unfold vt_in. f_equal.
  assert (G : forall l cur, (l <> [] -> last l 0 <> 10) -> (cur <> [] \/ l <> []) -> lines cur l = lines cur (l ++ [10])).
  { clear. induction l as [|c l IH]; intros cur NL NE; cbn [app lines].
    - destruct cur; [destruct NE; congruence|]. reflexivity.
    - destruct (c =? 10) eqn:E.
      + destruct l as [|e l]; [exfalso; apply NL; [discriminate|cbn; lia]|]. f_equal. apply IH; [|right; discriminate]. intros _. apply NL. discriminate.
      + apply IH; [|left; discriminate]. intros H. specialize (NL ltac:(discriminate)). destruct l; [congruence|exact NL]. }
  apply G; auto.
Qed.

(* The item with the length of the stream: a tag, four bytes never written, the length with the most
   significant byte first; it reads back, and so does the form with 4 bytes *)
Theorem C50_length_item gap v def : wrhdl gap v = [0; 0; 0; 8] ++ gap ++ be_bytes 8 v /\
  (length gap = 4%nat -> fits_signed 8 v -> rdhdl (wrhdl gap v) def = Ok v) /\
  (fits_signed 4 v -> rdhdl ([0; 0; 0; 2] ++ be_bytes 4 v) def = Ok v).
Proof.
  split; [apply wrhdl_bytes|]. split; [apply rdhdl_wrhdl|]. intros F.
  unfold rdhdl, TreeModel.zlen. rewrite app_length, be_len. cbn [firstn skipn app].
  change (Z.of_nat (length [0; 0; 0; 2] + 4) <? 4) with false. change (Z.of_nat (length [0; 0; 0; 2] + 4) =? 8) with true. cbv iota.
  replace (name_eqb (0 :: 0 :: 0 :: 2 :: firstn 0 (be_bytes 4 v)) int8_item) with false by reflexivity.
  replace (name_eqb (0 :: 0 :: 0 :: 2 :: firstn 0 (be_bytes 4 v)) int_item) with true by reflexivity.
  pose proof (unpack32_be [v]) as H. cbn [map List.concat] in H. change (length [v]) with 1%nat in H. rewrite app_nil_r in H. rewrite H. cbn [bind].
  f_equal. pose proof (read_signed_array 4 [v]) as R. change (length [v]) with 1%nat in R. rewrite R; [reflexivity|lia|].
  constructor; [exact F|constructor].
Qed.
Example C50_length_item_case : wrhdl [9; 9; 9; 9] 258 = [0; 0; 0; 8; 9; 9; 9; 9; 0; 0; 0; 0; 0; 0; 1; 2] /\ rdhdl [0; 0; 0; 2; 0; 0; 1; 2] 7 = Ok 258.
Proof. split; reflexivity. Qed.

Section Main.
Variable feq8 feq4 : list Z -> list Z -> bool.
Variable add1000 addf1000 : list Z -> list Z.
Variable junk : list Z.
Variable corrty : ty.
Variable f0 : file.
Variable hjunk rjunk : Z -> Z.     (* uninitialised memory of the writer and of the reader *)
Variable gap : list Z.

(* C50. A program writes a data set and its process dies at any point, even in the middle of closing
   it: whoever then opens it either gets an error, or reads the first records that were
   written, in order and unaltered, each with the variables it was written with, followed
   by the end of the data or an error. If the close went to its end, all records are
   there. *)
Theorem C50_interrupted nsize ops early late :
  host_ok feq8 feq4 add1000 corrty ->
  valid feq8 feq4 add1000 addf1000 corrty nsize None [] [] ops -> few_variables corrty ops ->
  plain_names ops -> f_size f0 = 0 -> length gap = 4%nat ->
  other_items early -> other_items late ->
  let ds := dataset corrty [] 0 ops in
  ds <> [] ->
  exists w, urun feq8 feq4 add1000 addf1000 junk corrty (uv_new corrty f0) ops = Ok w /\
    (w_off w < 2 ^ 63 -> forall tr, session hjunk gap w early late tr ->
      (forall k r, uv_open_disk rjunk (run_effs (Disk None []) (firstn k tr)) (w_flags w) = Ok r ->
         reads_prefix feq8 feq4 ds (reads nsize (S (length ds)) r)) /\
      exists r, uv_open_disk rjunk (run_effs (Disk None []) tr) (w_flags w) = Ok r /\
         reads_all feq8 feq4 ds (reads nsize (S (length ds)) r)).
Proof.
  intros HH V FEW PL F0 HG HE HL ds NE.
  destruct (C12_records_in_order feq8 feq4 add1000 addf1000 junk corrty f0 nsize ops HH V FEW NE)
    as (w & E & out & last & R & S & _). fold ds in R, S.
  exists w. split; [exact E|]. intros HB tr (b1 & b2 & t & B1 & B2 & FL & KF & TR).
  assert (VT : vt_ok (w_vars w)).
  { eapply urun_ok; [exact PL|exact E|]. split; cbn [uv_new w_vars map w_name].
    - constructor; [intros []|constructor].
    - constructor; [|constructor]. split; [|cbn; lia]. split; [discriminate|]. unfold printable. cbn. repeat constructor. }
  assert (WI : within w).
  { eapply urun_within; [exact E|]. unfold within, uv_new. cbn [w_file w_off]. lia. }
  assert (HA : reads_all feq8 feq4 ds (reads nsize (Datatypes.S (length ds)) (uv_open w))).
  { exists out, last. split; [exact R|]. clear -S. induction S as [|x y l l' [H _] _ IH]; constructor; auto. }
  assert (HF : exists o, hd_error (reads nsize (Datatypes.S (length ds)) (uv_open w)) = Some o /\ exists x, snd o = RdRec x).
  { rewrite R. destruct S as [|x y l l' [(x' & S1 & _) _] _]; [congruence|]. exists y. split; [reflexivity|].
    exists x'. exact S1. }
  assert (HV : vt_out (w_vars w) <> []).
  { intro X. destruct HF as (o & O1 & x & O2). cbn [reads hd_error] in O1. inversion O1; subst o.
    destruct (w_vars w) as [|v vs] eqn:EV; [|discriminate X].
    unfold uvread, uv_open in O2. rewrite EV in O2. discriminate O2. }
  assert (HS : stream w <> []).
  { intro X. destruct HF as (o & O1 & x & O2). cbn [reads hd_error] in O1. inversion O1; subst o. clear O1.
    assert (Z0 : f_size (w_file w) = 0).
    { apply (f_equal TreeModel.zlen) in X. rewrite stream_len in X by apply WI. exact X. }
    clear -O2 Z0. unfold uvread in O2. destruct (rfind _ "corr"); [|discriminate O2].
    unfold scan_fuel, read_loop, uv_scan, scan_fuel, scan_loop in O2. cbn [uv_open rd_max rd_file rd_off rd_vars] in O2.
    destruct (0 >=? w_off w); [discriminate O2|]. unfold fget in O2. rewrite Z0 in O2.
    change (0 + 4 >? 0) with true in O2. cbv iota in O2. discriminate O2. }
  assert (HFULL : run_effs (Disk None []) tr =
    Disk (Some (t_hfile t, t_hsize t)) (k_files (run_effs (Disk None []) (b1 ++ vt_effs w ++ b2)))).
  { set (X := b1 ++ vt_effs w ++ b2).
    replace tr with ((FHeader hjunk 0 :: X) ++ [FHeader (t_hfile t) 0; FHeader (t_hfile t) (t_hsize t)])
      by (rewrite TR; unfold X; cbn [app]; rewrite <- !app_assoc; reflexivity).
    rewrite run_app. clearbody X. cbn [run_effs fold_left apply_eff k_files]. f_equal.
    apply (run_files (Disk (Some (hjunk, 0)) []) (Disk None []) X). reflexivity. }
  destruct (open_full hjunk rjunk gap w early late t (k_files (run_effs (Disk None []) (b1 ++ vt_effs w ++ b2)))
    feq8 feq4 nsize ds HE HL HV HS HG VT WI HB HA FL KF) as (r & R1 & R2).
  rewrite <- HFULL in R1. split.
  - intros k r' HO.
    destruct (Nat.le_gt_cases (length tr) k) as [Hk|Hk].
    + rewrite firstn_all2 in HO by exact Hk. rewrite R1 in HO. inversion HO; subst r'. apply all_prefix. exact R2.
    + eapply open_part; [|exact VT|exact WI|exact HA|exact HO].
      apply part_run; [apply part_start|].
      set (pre := FHeader hjunk 0 :: b1 ++ vt_effs w ++ b2 ++ [FHeader (t_hfile t) 0]).
      assert (TR' : tr = pre ++ [FHeader (t_hfile t) (t_hsize t)]).
      { rewrite TR. unfold pre. cbn [app]. rewrite <- !app_assoc. reflexivity. }
      rewrite TR' in *. rewrite app_length in Hk. cbn [length] in Hk.
      rewrite firstn_app. replace (k - length pre)%nat with O by lia. cbn [firstn]. rewrite app_nil_r.
      apply Forall_firstn. unfold pre. constructor; [reflexivity|].
      apply Forall_app. split; [eapply Forall_impl; [|exact B1]; apply other_step|].
      apply Forall_app. split; [apply vt_steps|].
      apply Forall_app. split; [eapply Forall_impl; [|exact B2]; apply other_step|].
      constructor; [reflexivity|constructor].
  - exists r. split; [exact R1|exact R2].
Qed.
End Main.
(* ---------- a writer that can be interrupted everywhere ---------- *)
Definition crash_ops : list uop :=
  [UPut "telescop" TByte [80; 65]; UPut "source" TByte [122]; UPut "pol" TInt [0; 0; 0; 1];
   URec (rec1 10 20 30); UPut "lst" TDble (dbl 6); URec (rec1 11 21 40)].
Definition crash_w : writer :=
  match urun list_eqb list_eqb h_add h_addf [] TReal (uv_new TReal f_empty) crash_ops with Ok w => w | Err => uv_new TReal f_empty end.
Definition crash_early : list (list Z * list Z) := [(codes "freq0", [0; 0; 0; 5; 0; 0; 0; 0; 63; 1; 2; 3; 4; 5; 6; 7])].
Definition crash_late : list (list Z * list Z) := [(codes "ncorr", wrhdl [9; 9; 9; 9] 4)].
Definition cjunk : Z -> Z := fun _ => 170.
Definition cgap : list Z := [1; 2; 3; 4].
Definition crash_b1 : list eff := [FFile VISDATA []; FFile VISDATA (firstn 96 (stream crash_w))].
Definition crash_b2 : list eff := [FFile VISDATA (firstn 240 (stream crash_w)); FFile VISDATA (stream crash_w)].

Example crash_run : urun list_eqb list_eqb h_add h_addf [] TReal (uv_new TReal f_empty) crash_ops = Ok crash_w.
Proof.
  unfold crash_w. destruct (urun list_eqb list_eqb h_add h_addf [] TReal (uv_new TReal f_empty) crash_ops) eqn:E; [reflexivity|].
  apply (f_equal (@is_ok writer)) in E. vm_compute in E. discriminate E.
Qed.

Example C50_hyps : valid list_eqb list_eqb h_add h_addf TReal 64 None [] [] crash_ops /\
  few_variables TReal crash_ops /\ plain_names crash_ops /\ dataset TReal [] 0 crash_ops <> [] /\
  host_ok list_eqb list_eqb h_add TReal /\ f_size f_empty = 0 /\ length cgap = 4%nat /\
  other_items crash_early /\ other_items crash_late /\ w_off crash_w < 2 ^ 63.
Proof.
  split; [cbn [valid crash_ops]; vstep|]. split; [unfold few_variables; vm_compute; lia|].
  split.
  { intros n t b H. cbn [crash_ops In] in H.
    repeat match goal with H : _ \/ _ |- _ => destruct H as [H|H] end; try contradiction; try discriminate H; inversion H; subst;
      (split; [discriminate|]); repeat constructor; unfold printable; cbn; lia. }
  split; [discriminate|]. split; [apply h_ok; auto|]. split; [reflexivity|]. split; [reflexivity|].
  assert (Q : forall n, (0 < length n <= 8)%nat /\ forallb (fun c => (0 <? c) && (c <? 128)) n = true /\ n <> TreeSpec.header -> TreeSpec.legal_name n).
  { intros n (A & B & C). split; [exact A|]. split; [|exact C]. intros c Hc. rewrite forallb_forall in B. specialize (B c Hc). lia. }
  split; [|split].
  - split; [cbn; lia|]. constructor; [|constructor]. split; [apply Q; split; [cbn; lia|split; [reflexivity|discriminate]]|].
    split; [discriminate|]. split; [discriminate|]. split; discriminate.
  - split; [cbn; lia|]. constructor; [|constructor]. split; [apply Q; split; [cbn; lia|split; [reflexivity|discriminate]]|].
    split; [discriminate|]. split; [discriminate|]. split; discriminate.
  - vm_compute. reflexivity.
Qed.

(* there is such a session; opening after its first steps fails, a little later it gives no
   record, then one of the two, in the end both *)
Example C50_session_ex : exists tr, session cjunk cgap crash_w crash_early crash_late tr /\
  let answer k := match uv_open_disk cjunk (run_effs (Disk None []) (firstn k tr)) (w_flags crash_w) with
                  | Ok r => Some (map snd (reads 64 3 r)) | Err => None end in
  answer 3%nat = None /\ answer 4%nat = Some [RdErr; RdErr; RdErr] /\
  answer 5%nat = Some [RdEof; RdEof; RdEof] /\
  answer 6%nat = Some [RdRec (rec1 10 20 30); RdErr; RdErr] /\
  answer 7%nat = Some [RdRec (rec1 10 20 30); RdRec (rec1 11 21 40); RdEof].
Proof.
  destruct C50_hyps as (_ & _ & _ & _ & _ & _ & _ & HE & HL & _).
  assert (HV : vt_out (w_vars crash_w) <> []) by (vm_compute; discriminate).
  assert (HS : stream crash_w <> []) by (vm_compute; discriminate).
  destruct (at_close_spec cjunk cgap crash_w crash_early crash_late HE HL HV HS) as (D & T & _).
  destruct (flush_spec cjunk _ D T) as (t & E & _ & _ & F).
  exists (FHeader cjunk 0 :: crash_b1 ++ vt_effs crash_w ++ crash_b2 ++
          [FHeader (t_hfile t) 0; FHeader (t_hfile t) (t_hsize t)]).
  split.
  - exists crash_b1, crash_b2, t.
    assert (O : forall c, other_eff crash_w (FFile VISDATA (firstn c (stream crash_w)))).
    { intro c. cbn [other_eff]. split; [discriminate|]. split; [discriminate|]. intros _. exists c. reflexivity. }
    split; [constructor; [exact (O 0%nat)|constructor; [apply O|constructor]]|].
    split; [constructor; [apply O|constructor; [|constructor]]|].
    { rewrite <- (firstn_all (stream crash_w)). apply O. }
    split; [exact E|]. split; [|reflexivity].
    intro n. rewrite F. apply (f_equal (file_find n)). vm_compute. reflexivity.
  - clear. cbv zeta. split; [vm_compute; reflexivity|]. split; [vm_compute; reflexivity|].
    split; [vm_compute; reflexivity|]. split; vm_compute; reflexivity.
Qed.

Print Assumptions C50_interrupted.
Print Assumptions C50_vartable_roundtrip.
Print Assumptions C50_blank_name_refuted. Print Assumptions C50_blank_name_cut. Print Assumptions C50_vartable_last_line. Print Assumptions C50_length_item.
