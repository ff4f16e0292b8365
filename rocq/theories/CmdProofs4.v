From Coq Require Import String.
From Verif Require Import Base UvModel UvSpec UvProofs UvProofs2 UvProofs3 UvProofs4 UvProofs5 UvProps
  PipeModel PipeSpec PipeProofs PipeProofs2 PipeProofs3 PipeProofs4 PipeProps BaselineModel BaselineProps CmdModel CmdSpec CmdProofs CmdProofs2 CmdProofs3.
Ltac Zify.zify_post_hook ::= idtac.
Open Scope Z_scope.
Local Notation length := List.length.

Lemma steps_map (mf : unit -> reader -> urec -> res (unit * option urec)) out ys :
  Forall2 (fun o y => exists x, snd o = RdRec x /\ mf tt (fst o) x = Ok (tt, y)) out ys -> steps mf tt out = (ys, true).
Proof.
  intros F. induction F as [|[r o] y out ys (x & X1 & X2) F IH]; [reflexivity|]. cbn [snd] in X1. subst o. cbn [steps fst] in *.
  rewrite X2, IH. reflexivity.
Qed.

Lemma Forall2_choice {A B C} (P : A -> B -> Prop) (Q : A -> B -> C -> Prop) l m :
  Forall2 P l m -> (forall a b, In a l -> P a b -> exists c, Q a b c) -> exists cs, Forall2 (fun b c => exists a, In a l /\ Q a b c) m cs /\ Forall2 (fun a c => exists b, Q a b c) l cs /\
     Forall2 (fun ab c => Q (fst ab) (snd ab) c) (combine l m) cs.
Proof.
  intros F H. assert (G : forall l' m', Forall2 P l' m' -> incl l' l -> exists cs, Forall2 (fun b c => exists a, In a l /\ Q a b c) m' cs /\ Forall2 (fun a c => exists b, Q a b c) l' cs /\ Forall2 (fun ab c => Q (fst ab) (snd ab) c) (combine l' m') cs).
  { intros l' m' F'. induction F' as [|a b l' m' Hab F' IH]; intros I.
    - exists []. repeat split; constructor.
    - destruct (H a b (I a (or_introl eq_refl)) Hab) as [c Hc]. destruct IH as (cs & C1 & C2 & C3); [intros z Hz; apply I; right; exact Hz|].
      exists (c :: cs). split; [constructor; [exists a; split; [apply I; left; reflexivity|exact Hc]|exact C1]|].
      split; [constructor; [eauto|exact C2]|]. cbn [combine]. constructor; [exact Hc|exact C3]. }
  apply G; [exact F|apply incl_refl].
Qed.


Lemma rd4_be4s k : -2147483648 <= k < 2147483648 -> rd4 (be4 k) = k.
Proof.
  intros H. unfold be4, rd4.
  assert (E : k / 16777216 mod 256 * 16777216 + k / 65536 mod 256 * 65536 + k / 256 mod 256 * 256 + k mod 256 = k mod 4294967296).
  { assert (D1 : k / 65536 = k / 256 / 256) by (rewrite Z.div_div by lia; reflexivity).
    assert (D2 : k / 16777216 = k / 256 / 256 / 256) by (rewrite !Z.div_div by lia; reflexivity).
    rewrite D2, D1. set (a := k / 256 / 256) in *.
    pose proof (Z_div_mod_eq_full k 256). pose proof (Z_div_mod_eq_full (k / 256) 256). pose proof (Z_div_mod_eq_full a 256). pose proof (Z_div_mod_eq_full (a / 256) 256).
    pose proof (Z.mod_pos_bound k 256 ltac:(lia)). pose proof (Z.mod_pos_bound (k / 256) 256 ltac:(lia)). pose proof (Z.mod_pos_bound a 256 ltac:(lia)). pose proof (Z.mod_pos_bound (a / 256) 256 ltac:(lia)).
    apply Z.mod_unique_pos with (q := a / 256 / 256); unfold a in *; lia. }
  rewrite E. destruct (Z.ltb_spec (k mod 4294967296) 2147483648) as [L|L].
  - destruct (Z.lt_ge_cases k 0); [|apply Z.mod_small; lia].
    replace (k mod 4294967296) with (k + 4294967296) in L by (apply Z.mod_unique_pos with (q := -1); lia). lia.
  - destruct (Z.lt_ge_cases k 0).
    + replace (k mod 4294967296) with (k + 4294967296) by (apply Z.mod_unique_pos with (q := -1); lia). lia.
    + rewrite Z.mod_small in L by lia. lia.
Qed.

Section All.
Variable feq8 feq4 : list Z -> list Z -> bool.
Variable add1000 addf1000 : list Z -> list Z.
Variable junk : list Z.

(* a function without state that answers every record *)
Lemma all_rows f0 f0' nsize ops hs ks (mf : unit -> reader -> urec -> res (unit * option urec)) (W : row -> urec -> Prop) :
  host_ok feq8 feq4 add1000 TReal -> valid feq8 feq4 add1000 addf1000 TReal nsize None [] [] ops -> plain nsize ops ->
  let ds := dataset TReal [] 0 ops in
  Forall (fun k => (k <= length ds)%nat) hs ->
  (forall d o, In d ds -> src_row feq8 feq4 nsize d o -> exists x y, snd o = RdRec x /\ mf tt (fst o) x = Ok (tt, Some y) /\ good_out nsize x y /\
     forall y', same_rec feq8 feq4 y y' -> W d y') ->
  exists w, urun feq8 feq4 add1000 addf1000 junk TReal (uv_new TReal f0) ops = Ok w /\
  let r0 := fold_left rstep (sessions nsize hs) (uv_open w) in
  (same_members ks r0 ->
   exists w', script feq8 feq4 add1000 addf1000 junk mf (Ok tt) nsize r0 ks [] f0' tt = Finished w' /\
     rewritten feq8 feq4 (fun d => d) W ds nsize w').
Proof.
  intros H V PL ds HK HM. 
  destruct (source_rows feq8 feq4 add1000 addf1000 junk f0 nsize ops hs H V PL HK) as (w & E & out & last & R & SR). fold ds in R, SR.
  pose (Q := fun (d : row) (o : reader * rdres) y => exists x, snd o = RdRec x /\ same_rec feq8 feq4 (fst d) x /\ r_n x = nsize /\ mf tt (fst o) x = Ok (tt, Some y) /\ good_out nsize x y /\
     forall y', same_rec feq8 feq4 y y' -> W d y').
  destruct (Forall2_choice _ Q _ _ SR) as (ys & Y1 & Y2 & _).
  { intros d o Hd Hs. destruct (HM d o Hd Hs) as (x & y & X1 & X2 & X3 & X4). exists y, x. split; [exact X1|].
    destruct Hs as (x' & S1 & S2 & S3 & S4 & _). assert (x' = x) by congruence. subst x'. auto. }
  exists w. split; [exact E|]. intros r0 SM.
  destruct (rewrite_main feq8 feq4 add1000 addf1000 junk f0 f0' nsize ops hs ks (map Some ys) H V PL HK) as (w1 & E1 & out1 & last1 & R1 & _ & M).
  assert (w1 = w) by congruence. subst w1. fold ds in R1, M. fold r0 in R, R1, M.
  assert (out1 = out /\ last1 = last) as [-> ->]. { rewrite R in R1. apply app_inj_tail in R1 as [A B]. split; congruence. }
  destruct M as (w' & M1 & _ & M3).
  - exact SM.
  - intros i y Hi. rewrite nth_all_some in Hi. destruct (Forall2_nth _ _ _ _ _ (Forall2_flip _ _ _ Y1) Hi) as ([r o] & O1 & d & D & x & X1 & _ & _ & _ & X2 & _).
    cbn [snd] in X1. subst o. eauto.
  - exists w'.
    assert (ST : steps mf tt out = (map Some ys, true)).
    { apply steps_map. clear -Y1. induction Y1 as [|o y out ys (d & D & x & X1 & _ & _ & X2 & _) F IH]; constructor; eauto. }
    split.
    + specialize (M1 unit mf tt). rewrite ST in M1. cbn [fst snd] in M1. apply M1. auto.
    + assert (LY : length ds = length ys) by (eapply Forall2_length; exact Y2).
      assert (KA : kept_rows (map Some ys) 0 ds = combine ds ys) by (rewrite kept_all; [reflexivity|rewrite LY; reflexivity]).
      rewrite KA in M3. eapply (finish feq8 feq4 add1000); [exact H| |apply M3].
      * clear -Y2. induction Y2 as [|d y ds ys (o & x & X1 & X2 & X3 & X4 & X5 & X6) F IH]; [constructor|]. cbn [combine].
        constructor; [|exact IH]. cbn [fst snd]. split; [reflexivity|]. split; [eauto|exact X6].
      * destruct PL as (NE & _). fold ds in NE. destruct ds; [congruence|]. destruct ys; [discriminate LY|]. discriminate.
Qed.

(* what uv['pol'] gives at a record *)
Lemma pol_read nsize d o k : src_row feq8 feq4 nsize d o -> pol_at d k -> uv_pol (fst o) = Ok k.
Proof.
  intros (x & _ & _ & _ & _ & S) [L B]. unfold uv_pol. rewrite (S "pol"%string TInt (be4 k) L) by (intros [X|[X|X]]; discriminate X).
  unfold be4 at 1. f_equal. apply (rd4_be4s k B).
Qed.
End All.

(* names of polarisations *)
Lemma pol2str_spec p k : In (p, k) pol_names -> pol2str str2pol k = Ok p.
Proof. unfold pol_names. cbn [In]. intros H. repeat (destruct H as [H|H]; [injection H as <- <-; vm_compute; reflexivity|]). destruct H. Qed.

(* the crosstalk file *)
Lemma blp_pair a b p i j k : 0 <= a <= 2046 -> 0 <= b <= 2046 -> -9 <= p <= 6 -> 0 <= i <= 2046 -> 0 <= j <= 2046 -> -9 <= k <= 6 ->
  (ijp2blp a b p = ijp2blp i j k <-> p = k /\ ((a = i /\ b = j) \/ (a = j /\ b = i))).
Proof.
  intros A B P I J K. split.
  - intros E. pose proof (C03_blp_roundtrip a b p A B P) as X. pose proof (C03_blp_roundtrip i j k I J K) as Y. rewrite E, Y in X. injection X as X1 X2 X3.
    split; [congruence|]. lia.
  - intros [-> [[-> ->]|[-> ->]]]; [reflexivity|]. unfold ijp2blp. now rewrite (C01_bl_order_free j i).
Qed.
Lemma xlookup_some es i j k : Forall xrange es -> 0 <= i <= 2046 -> 0 <= j <= 2046 -> -9 <= k <= 6 ->
  forall m, xlookup (xfile es) (ijp2blp i j k) = Some m -> exists e, In e es /\ for_pair e i j k /\ snd e = m.
Proof.
  intros F I J K m. induction F as [|[[[a b] p] m'] es (A & B & P) F IH]; cbn [xfile map xlookup]; [discriminate|].
  destruct (Z.eqb_spec (ijp2blp a b p) (ijp2blp i j k)) as [E|E].
  - intros X. injection X as <-. exists (a, b, p, m'). split; [left; reflexivity|]. split; [|reflexivity]. apply (blp_pair a b p i j k) in E; auto.
  - intros X. destruct (IH X) as (e & E1 & E2). exists e. split; [right; exact E1|exact E2].
Qed.
Lemma xlookup_none es i j k : Forall xrange es -> 0 <= i <= 2046 -> 0 <= j <= 2046 -> -9 <= k <= 6 ->
  xlookup (xfile es) (ijp2blp i j k) = None -> forall e, In e es -> ~ for_pair e i j k.
Proof.
  intros F I J K. induction F as [|[[[a b] p] m'] es (A & B & P) F IH]; cbn [xfile map xlookup]; [intros _ e []|].
  destruct (Z.eqb_spec (ijp2blp a b p) (ijp2blp i j k)) as [E|E]; [discriminate|].
  intros X e [<-|He]; [|exact (IH X e He)]. intros H. apply E. apply blp_pair; auto.
Qed.
