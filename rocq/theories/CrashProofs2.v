(* Proofs about CrashModel: the table of variables, the length item, the open after a crash. *)
From Verif Require Import Base PackModel PackSpec PackProofs.
From Verif Require Import HioModel TreeModel TreeProofs TreeProofs2.
From Verif Require TreeSpec.
From Coq Require Import String Ascii.
From Verif Require Import UvModel UvSpec HdrModel CrashModel CrashSpec CrashProofs.
Ltac Zify.zify_post_hook ::= idtac.
Open Scope Z_scope.
Open Scope list_scope.
Local Notation length := List.length.

Lemma uncodes_codes n : uncodes (codes n) = n.
Proof.
  unfold uncodes, codes. rewrite map_map. rewrite map_ext with (g := fun c => c).
  - rewrite map_id. apply string_of_list_ascii_of_string.
  - intro c. rewrite N2Z.id. apply ascii_N_embedding.
Qed.

Lemma codes_len n : length (codes n) = String.length n.
Proof. unfold codes. rewrite map_length. induction n; cbn; auto. Qed.

Lemma plain_codes n : plain n -> codes n <> [] /\ Forall (fun c => 33 <= c <= 126) (codes n).
Proof.
  intros [H1 H2]. split.
  - destruct n; [congruence|discriminate].
  - unfold codes. induction H2 as [|c l H _ IH]; cbn [map]; constructor; [|exact IH].
    unfold printable, nat_of_ascii in H. lia.
Qed.

Lemma lines_app cur l r : Forall (fun c => c <> 10) l -> lines cur (l ++ 10 :: r) = (rev cur ++ l) :: lines [] r.
Proof.
  intro H. revert cur. induction H as [|c l Hc _ IH]; intro cur; cbn [app lines].
  - rewrite app_nil_r. reflexivity.
  - rewrite (proj2 (Z.eqb_neq _ _) Hc). rewrite IH. cbn [rev]. rewrite <- app_assoc. reflexivity.
Qed.

Lemma tychar_ty t : ty_of (tychar t) = Some t.
Proof. destruct t; reflexivity. Qed.

Lemma blank_printable c : 33 <= c <= 126 -> blank c = false /\ (c =? 0) = false.
Proof. intro H. unfold blank. lia. Qed.

Lemma word_plain l : Forall (fun c => 33 <= c <= 126) l -> word l = l.
Proof.
  induction 1 as [|c l H _ IH]; [reflexivity|]. cbn [word]. destruct (blank_printable c H) as [-> ->].
  cbn [orb]. now rewrite IH.
Qed.

Lemma skip_plain l : Forall (fun c => 33 <= c <= 126) l -> skip_blank l = l.
Proof. intros [|c r H _]; [reflexivity|]. cbn [skip_blank]. now destruct (blank_printable c H) as [-> _]. Qed.

Definition rv (v : wvar) : rvar := RV (w_name v) (w_ty v) 0 None 0.

(* the invariant of the table *)
Definition vt_ok (vs : list wvar) : Prop :=
  NoDup (map w_name vs) /\ Forall (fun v => plain (w_name v) /\ (String.length (w_name v) <= 8)%nat) vs.

Lemma find_name_none {A} (nm : A -> string) n l : ~ In n (map nm l) -> find_name nm n l = None.
Proof.
  induction l as [|x l IH]; intro H; [reflexivity|]. cbn [find_name map] in *.
  destruct (String.eqb_spec (nm x) n) as [E|E]; [exfalso; apply H; left; exact E|].
  rewrite IH; [reflexivity|]. intro; apply H; right; assumption.
Qed.

Lemma find_name_in {A} (nm : A -> string) n l : find_name nm n l = None -> ~ In n (map nm l).
Proof.
  induction l as [|x l IH]; intros H; [intros []|]. cbn [find_name map] in *.
  destruct (String.eqb_spec (nm x) n) as [E|E]; [discriminate|].
  destruct (find_name nm n l); [discriminate|]. intros [X|X]; [congruence|]. exact (IH eq_refl X).
Qed.

Lemma vt_round acc vs : NoDup (map w_name (acc ++ vs)) ->
  Forall (fun v => plain (w_name v) /\ (String.length (w_name v) <= 8)%nat) vs ->
  vt_vars (map rv acc) (lines [] (vt_out vs)) = Ok (map rv (acc ++ vs)).
Proof.
  revert acc. induction vs as [|v vs IH]; intros acc ND HF.
  - cbn. rewrite app_nil_r. reflexivity.
  - inversion HF as [|? ? [Hp Hl] HF']; subst. destruct (plain_codes _ Hp) as [Hne Hpl].
    assert (EV : vt_out (v :: vs) = (tychar (w_ty v) :: 32 :: codes (w_name v)) ++ 10 :: vt_out vs).
    { unfold vt_out. cbn [flat_map]. unfold vt_line at 1. cbn [app]. rewrite <- app_assoc. reflexivity. }
    rewrite EV. clear EV.
    rewrite lines_app.
    2:{ constructor; [destruct (w_ty v); discriminate|]. constructor; [discriminate|].
        eapply Forall_impl; [|exact Hpl]. cbn beta; intros; lia. }
    cbn [rev app vt_vars vt_var]. replace (skip_blank (32 :: codes (w_name v))) with (codes (w_name v))
      by (cbn [skip_blank]; symmetry; apply skip_plain; exact Hpl).
    rewrite (word_plain _ Hpl), tychar_ty.
    destruct (codes (w_name v)) as [|c0 cs] eqn:EC; [congruence|]. rewrite <- EC. rewrite uncodes_codes.
    rewrite (find_name_none v_name).
    2:{ rewrite map_map. cbn [rv v_name]. rewrite map_app in ND. cbn [map] in ND. apply NoDup_remove_2 in ND.
        intro X. apply ND. apply in_or_app. left. exact X. }
    rewrite codes_len. replace (8 <? String.length (w_name v))%nat with false by (symmetry; apply Nat.ltb_ge; lia).
    cbn [bind]. replace (map rv acc ++ [RV (w_name v) (w_ty v) 0 None 0]) with (map rv (acc ++ [v]))
      by (rewrite map_app; reflexivity).
    rewrite IH; [rewrite <- app_assoc; reflexivity|rewrite <- app_assoc; exact ND|exact HF'].
Qed.

Lemma vt_in_out vs : vt_ok vs -> vt_in (vt_out vs) = Ok (map rv vs).
Proof. intros [H1 H2]. exact (vt_round [] vs H1 H2). Qed.

(* ---------- the writer keeps the table well formed ---------- *)
Lemma upd_names {A} (nm : A -> string) l i x v : nth_error l i = Some v -> nm x = nm v -> map nm (UvModel.upd l i x) = map nm l.
Proof.
  revert i. induction l as [|y l IH]; intros i E H; destruct i; cbn in *; try discriminate; auto.
  - inversion E; subst. now rewrite H.
  - f_equal. eapply IH; eauto.
Qed.

Lemma upd_ok vs i x v : nth_error vs i = Some v -> w_name x = w_name v -> vt_ok vs -> vt_ok (UvModel.upd vs i x).
Proof.
  intros E H [H1 H2]. split; [rewrite (upd_names w_name _ _ _ v); auto|].
  apply upd_Forall; [exact H2|]. rewrite H. rewrite Forall_forall in H2. apply H2. eapply nth_error_In; eauto.
Qed.

Lemma mkvar_ok vs n t i vs' : plain n -> mkvar vs n t = Ok (i, vs') -> vt_ok vs -> vt_ok vs'.
Proof.
  intros Hp H [H1 H2]. unfold mkvar in H. destruct (find_name w_name n vs) eqn:E.
  - inversion H; subst. split; assumption.
  - destruct (8 <? String.length n)%nat eqn:L; [discriminate|]. inversion H; subst. apply find_name_in in E.
    split.
    + rewrite map_app. cbn [map w_name]. apply NoDup_Add with (a := n) (l := map w_name vs).
      * rewrite <- (app_nil_r (map w_name vs)) at 1. apply Add_app.
      * split; assumption.
    + apply Forall_app. split; [exact H2|]. constructor; [|constructor]. cbn [w_name]. split; [exact Hp|].
      apply Nat.ltb_ge in L. exact L.
Qed.

Lemma setv_ok vs i nc b : vt_ok vs -> vt_ok (setv vs i nc b).
Proof. intro H. unfold setv. destruct (nth_error vs i) eqn:E; [|exact H]. eapply upd_ok; eauto. Qed.

Lemma uvputvr_ok w t n bs w' : plain n -> uvputvr w t n bs = Ok w' -> vt_ok (w_vars w) -> vt_ok (w_vars w').
Proof.
  intros Hp. unfold uvputvr. destruct (UvModel.zlen bs / ext t <=? 0); [intro H; inversion H; subst; auto|].
  destruct (mkvar (w_vars w) n t) as [[i vs]|] eqn:E; [|discriminate].
  destruct (nth_error vs i) as [v|] eqn:E1; [|discriminate].
  destruct (negb (ty_eqb (w_ty v) t)); [discriminate|]. cbv zeta.
  intros H HO. pose proof (mkvar_ok _ _ _ _ _ Hp E HO) as HV.
  destruct (w_nocheck v || _ || _); inversion H; subst; cbn [w_vars].
  - eapply upd_ok; eauto. destruct (w_call v >? 6), (w_nocheck v); reflexivity.
  - eapply upd_ok; eauto.
Qed.

Lemma plain_lib n : In n ["corr"; "coord"; "time"; "baseline"; "nchan"; "tscale"]%string -> plain n.
Proof.
  intro H. cbn [In] in H. destruct H as [<-|[<-|[<-|[<-|[<-|[<-|[]]]]]]]; (split; [discriminate|]);
    repeat constructor; unfold printable; cbn; lia.
Qed.

Lemma set_buf_ok w n b : vt_ok (w_vars w) -> vt_ok (w_vars (set_buf w n b)).
Proof.
  intro H. unfold set_buf. destruct (find_name w_name n (w_vars w)); [|exact H].
  destruct (nth_error (w_vars w) n0) eqn:E; [|exact H]. cbn [w_vars]. apply setv_ok; exact H.
Qed.

Section Host.
Variable feq8 feq4 : list Z -> list Z -> bool.
Variable add1000 addf1000 : list Z -> list Z.
Variable junk : list Z.
Variable corrty : ty.

Lemma init_pre_ok vs n t b vs' : plain n -> init_pre vs n t b = Ok vs' -> vt_ok vs -> vt_ok vs'.
Proof.
  intros Hp H HO. unfold init_pre, bind in H. destruct (mkvar vs n t) as [[i vs1]|] eqn:E; [|discriminate].
  cbn [fst snd] in H. destruct (nth_error vs1 i); [|discriminate]. inversion H; subst.
  apply setv_ok. eapply mkvar_ok; eauto.
Qed.

Lemma uvwrite_init_ok w r w' : uvwrite_init add1000 addf1000 junk corrty w r = Ok w' -> vt_ok (w_vars w) -> vt_ok (w_vars w').
Proof.
  intros H HO. unfold uvwrite_init in H. destruct (w_init w); [inversion H; subst; exact HO|].
  destruct (mkvar (w_vars w) "corr" corrty) as [[i vs]|] eqn:E; [|discriminate]. cbn [bind fst snd] in H.
  assert (V0 : vt_ok vs) by (eapply mkvar_ok; [|exact E|exact HO]; apply plain_lib; cbn; auto).
  set (vs0 := match nth_error vs i with Some v => setv vs i true (w_buf v) | None => vs end) in H.
  assert (V0' : vt_ok vs0) by (subst vs0; destruct (nth_error vs i); [apply setv_ok|]; exact V0).
  clearbody vs0.
  destruct (init_pre vs0 "coord" TDble (add1000 (r_u r) ++ junk)) as [vs1|] eqn:E1; [|discriminate]. cbn [bind] in H.
  destruct (init_pre vs1 "time" TDble (add1000 (r_w r))) as [vs2|] eqn:E2; [|discriminate]. cbn [bind] in H.
  destruct (init_pre vs2 "baseline" TReal (addf1000 (r_t r))) as [vs3|] eqn:E3; [|discriminate]. cbn [bind] in H.
  inversion H; subst. cbn [w_vars].
  eapply init_pre_ok; [|exact E3|]; [apply plain_lib; cbn; auto|].
  eapply init_pre_ok; [|exact E2|]; [apply plain_lib; cbn; auto|].
  eapply init_pre_ok; [|exact E1|]; [apply plain_lib; cbn; auto|exact V0'].
Qed.

Lemma bind_ok {A B} (x : res A) (f : A -> res B) y : bind x f = Ok y -> exists a, x = Ok a /\ f a = Ok y.
Proof. destruct x; [|discriminate]. intro H. exists a. auto. Qed.

Lemma uvwrite_ok w r w' : uvwrite feq8 feq4 add1000 addf1000 junk corrty w r = Ok w' ->
  vt_ok (w_vars w) -> vt_ok (w_vars w').
Proof.
  intros H HO. unfold uvwrite in H.
  apply bind_ok in H. destruct H as (w1 & E1 & H). pose proof (uvwrite_init_ok _ _ _ E1 HO) as V1. clear E1 HO.
  apply bind_ok in H. destruct H as (w2 & E2 & H).
  assert (V2 : vt_ok (w_vars w2)).
  { destruct (r_n r =? numchan corrty (corr_len w1)); [inversion E2; subst; exact V1|].
    eapply uvputvr_ok; [|exact E2|exact V1]; apply plain_lib; cbn; auto 10. }
  clear E2 V1. cbv zeta in H.
  set (w2' := Wr (w_vars w2) (w_off w2) (w_file w2) (w_init w2) (w_flags w2 ++ r_fl r)) in H.
  assert (V2' : vt_ok (w_vars w2')) by exact V2. clearbody w2'. clear V2.
  apply bind_ok in H. destruct H as (w3 & E3 & H).
  assert (V3 : vt_ok (w_vars w3)).
  { destruct corrty; try (inversion E3; subst; exact V2').
    eapply uvputvr_ok; [|exact E3|exact V2']; apply plain_lib; cbn; auto 10. }
  clear E3 V2'. apply bind_ok in H. destruct H as (w4 & E4 & H).
  assert (V4 : vt_ok (w_vars w4)) by (eapply uvputvr_ok; [|exact E4|exact V3]; apply plain_lib; cbn; auto 10).
  clear E4 V3. apply bind_ok in H. destruct H as (w5 & E5 & H).
  assert (V5 : vt_ok (w_vars w5)).
  { destruct (negb _ || _ || _); [|inversion E5; subst; exact V4].
    apply bind_ok in E5. destruct E5 as (x & X1 & X2). inversion X2; subst. apply set_buf_ok.
    eapply uvputvr_ok; [|exact X1|exact V4]; apply plain_lib; cbn; auto 10. }
  clear E5 V4. apply bind_ok in H. destruct H as (w6 & E6 & H).
  assert (V6 : vt_ok (w_vars w6)).
  { destruct (negb _) in E6; [|inversion E6; subst; exact V5].
    apply bind_ok in E6. destruct E6 as (x & X1 & X2). inversion X2; subst. apply set_buf_ok.
    eapply uvputvr_ok; [|exact X1|exact V5]; apply plain_lib; cbn; auto 10. }
  clear E6 V5. apply bind_ok in H. destruct H as (w7 & E7 & H).
  assert (V7 : vt_ok (w_vars w7)).
  { destruct (negb _) in E7; [|inversion E7; subst; exact V6].
    apply bind_ok in E7. destruct E7 as (x & X1 & X2). inversion X2; subst. apply set_buf_ok.
    eapply uvputvr_ok; [|exact X1|exact V6]; apply plain_lib; cbn; auto 10. }
  inversion H; subst. exact V7.
Qed.

Lemma urun_ok ops : forall w w', plain_names ops -> urun feq8 feq4 add1000 addf1000 junk corrty w ops = Ok w' ->
  vt_ok (w_vars w) -> vt_ok (w_vars w').
Proof.
  induction ops as [|o ops IH]; intros w w' HP H HO; cbn [urun] in H; [inversion H; subst; exact HO|].
  apply bind_ok in H. destruct H as (w1 & E & H).
  eapply (IH w1 w'); [|exact H|].
  - intros n t b Hin. apply (HP n t b). right; exact Hin.
  - destruct o as [n t bs|r]; cbn [ustep] in E.
    + eapply uvputvr_ok; [|exact E|exact HO]. apply (HP n t bs). left; reflexivity.
    + eapply uvwrite_ok; eauto.
Qed.
End Host.

(* ---------- the length item ---------- *)
Lemma wrhdl_bytes gap v : wrhdl gap v = int8_item ++ gap ++ be_bytes 8 v.
Proof.
  unfold wrhdl. assert (H : pack64_c 1 (le_bytes 8 v) = Ok (be_bytes 8 v)).
  { pose proof (rev8_array [v]) as H. unfold array_mem in H. cbn [map List.concat] in H.
    change (length [v]) with 1%nat in H. rewrite app_nil_r in H. rewrite app_nil_r in H. exact H. }
  rewrite H. reflexivity.
Qed.

Lemma be_len k v : length (be_bytes k v) = k.
Proof. unfold be_bytes. now rewrite map_length, seq_length. Qed.

Lemma rdhdl_wrhdl gap v def : length gap = 4%nat -> fits_signed 8 v -> rdhdl (wrhdl gap v) def = Ok v.
Proof.
  intros Hg Hv. rewrite wrhdl_bytes. unfold rdhdl, TreeModel.zlen.
  rewrite !app_length, be_len, Hg.
  replace (Z.of_nat (length int8_item + (4 + 8)) <? 4) with false by reflexivity.
  replace (firstn 4 (int8_item ++ gap ++ be_bytes 8 v)) with int8_item by reflexivity.
  replace (name_eqb int8_item int8_item) with true by reflexivity.
  replace (Z.of_nat (length int8_item + (4 + 8)) =? 16) with true by reflexivity.
  destruct gap as [|g0 [|g1 [|g2 [|g3 [|]]]]]; try discriminate Hg. unfold int8_item. cbn [app skipn].
  pose proof (unpack64_be [v]) as H. cbn [map List.concat] in H. change (length [v]) with 1%nat in H. rewrite app_nil_r in H. rewrite H. cbn [bind].
  f_equal. pose proof (read_signed_array 8 [v]) as R. change (length [v]) with 1%nat in R. rewrite R; [reflexivity|lia|].
  constructor; [exact Hv|constructor].
Qed.
