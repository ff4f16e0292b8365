(* Proofs about CrashModel: a reader on a shortened stream. *)
From Verif Require Import Base.
From Coq Require Import String.
From Verif Require Import UvModel.
Ltac Zify.zify_post_hook ::= idtac.
Open Scope Z_scope.
Open Scope list_scope.
Local Notation length := List.length.

(* the reader, on another file with another length *)
Definition onto (g : file) (m : Z) (r : reader) : reader :=
  Rd (rd_vars r) (rd_off r) g m (rd_callno r) (rd_mark r) (rd_flags r) (rd_foff r) (rd_init r).

Definition flens (r : reader) : Prop := Forall (fun v => 0 <= v_flen v) (rd_vars r).

Lemma upd_Forall {A} (P : A -> Prop) l i x : Forall P l -> P x -> Forall P (upd l i x).
Proof.
  intros H Hx. revert i. induction H; intros i; cbn [upd]; [constructor|].
  destruct i; constructor; auto.
Qed.

Lemma mroundup_pos a b : 0 <= a -> 0 < b -> 0 <= mroundup a b.
Proof. intros. unfold mroundup. apply Z.mul_nonneg_nonneg; [lia|]. apply Z.div_pos; lia. Qed.

Lemma ext_pos t : 0 < ext t.
Proof. destruct t; reflexivity. Qed.

Lemma nth_flen r i v : flens r -> nth_error (rd_vars r) i = Some v -> 0 <= v_flen v.
Proof. intros H E. apply nth_error_In in E. unfold flens in H. rewrite Forall_forall in H. auto. Qed.

(* ---------- a shorter file ---------- *)
Definition cut (f g : file) : Prop :=
  f_size g <= f_size f /\ forall p, 0 <= p < f_size g -> f_at g p = f_at f p.

Lemma fget_cut f g a n b : cut f g -> 0 <= a -> fget g a n = Some b -> fget f a n = Some b.
Proof.
  intros [H1 H2] Ha. unfold fget. destruct (a + n >? f_size g) eqn:E1; [discriminate|].
  destruct (a + n >? f_size f) eqn:E2; [lia|]. intro H. inversion H. f_equal. apply map_ext_in.
  intros k Hk. apply in_seq in Hk. symmetry. apply H2. lia.
Qed.

Lemma scan_cut g m fuel : forall r off r1', cut (rd_file r) g -> m <= rd_max r -> flens r -> 0 <= off ->
  scan_loop fuel (onto g m r) off = ScOk r1' ->
  exists r1, r1' = onto g m r1 /\ rd_file r1 = rd_file r /\ rd_max r1 = rd_max r /\ flens r1 /\ 0 <= rd_off r1 /\
    forall fuel2, (fuel <= fuel2)%nat -> scan_loop fuel2 r off = ScOk r1.
Proof.
  induction fuel as [|fuel IH]; intros r off r1' HC HM HF HO; [discriminate|].
  cbn [scan_loop]. cbn [onto rd_max rd_file rd_vars rd_callno rd_mark rd_flags rd_foff rd_init].
  destruct (off >=? m) eqn:E0; [discriminate|].
  destruct (fget g off 4) as [s|] eqn:E1; [|discriminate]. pose proof (fget_cut _ _ _ _ _ HC HO E1) as G1.
  destruct (nth 2 s 0 =? VAR_EOR) eqn:E2.
  { intro H. inversion H; subst; clear H.
    exists (Rd (rd_vars r) (off + 8) (rd_file r) (rd_max r) (rd_callno r) (rd_mark r) (rd_flags r) (rd_foff r) (rd_init r)).
    split; [reflexivity|]. split; [reflexivity|]. split; [reflexivity|]. split; [exact HF|].
    split; [cbn [rd_off]; lia|].
    intros fuel2 Hf. destruct fuel2; [lia|]. cbn [scan_loop].
    destruct (off >=? rd_max r) eqn:E3; [lia|]. rewrite G1, E2. reflexivity. }
  destruct (nth 0 s 0 >=? 128) eqn:E3; [discriminate|].
  destruct (nth_error (rd_vars r) (Z.to_nat (nth 0 s 0))) as [v|] eqn:E4; [|discriminate].
  pose proof (nth_flen _ _ _ HF E4) as HV.
  destruct (nth 2 s 0 =? VAR_SIZE) eqn:E5.
  - destruct (fget g (off + 4) 4) as [b|] eqn:E6; [|discriminate].
    assert (HO4 : 0 <= off + 4) by lia.
    pose proof (fget_cut _ _ _ _ _ HC HO4 E6) as G6.
    destruct (rd4 b <=? 0) eqn:E7; [discriminate|].
    destruct (negb (rd4 b mod ext (v_ty v) =? 0)) eqn:E8; [discriminate|].
    intro H. set (r0 := with_vars r (upd (rd_vars r) (Z.to_nat (nth 0 s 0))
       (RV (v_name v) (v_ty v) (rd4 b) (Some (realloc (v_buf v) (rd4 b))) (rd_callno r)))).
    assert (HF0 : flens r0). { apply upd_Forall; [exact HF|]. cbn [v_flen]. lia. }
    assert (HO8 : 0 <= off + 8) by lia.
    destruct (IH r0 (off + 8) r1') as (r1 & A1 & A2 & A3 & A4 & A5 & A6); [exact HC|exact HM|exact HF0|exact HO8|exact H|].
    exists r1. split; [exact A1|]. split; [exact A2|]. split; [exact A3|]. split; [exact A4|]. split; [exact A5|].
    intros fuel2 Hf. destruct fuel2; [lia|]. cbn [scan_loop].
    destruct (off >=? rd_max r) eqn:E9; [lia|]. rewrite G1, E2, E3, E4, E5, G6, E7, E8. apply A6. lia.
  - destruct (nth 2 s 0 =? VAR_DATA) eqn:E6; [|discriminate].
    set (off1 := off + mroundup 4 (ext (v_ty v))).
    assert (HO1 : 0 <= off1). { subst off1. pose proof (mroundup_pos 4 (ext (v_ty v))). pose proof (ext_pos (v_ty v)). lia. }
    destruct (fget g off1 (v_flen v)) as [b|] eqn:E7; [|discriminate].
    pose proof (fget_cut _ _ _ _ _ HC HO1 E7) as G7.
    intro H. set (r0 := with_vars r (upd (rd_vars r) (Z.to_nat (nth 0 s 0))
       (RV (v_name v) (v_ty v) (v_flen v) (Some b) (rd_callno r)))).
    assert (HF0 : flens r0). { apply upd_Forall; [exact HF|]. exact HV. }
    assert (HO8 : 0 <= mroundup (off1 + v_flen v) 8) by (apply mroundup_pos; lia).
    destruct (IH r0 (mroundup (off1 + v_flen v) 8) r1') as (r1 & A1 & A2 & A3 & A4 & A5 & A6);
      [exact HC|exact HM|exact HF0|exact HO8|exact H|].
    exists r1. split; [exact A1|]. split; [exact A2|]. split; [exact A3|]. split; [exact A4|]. split; [exact A5|].
    intros fuel2 Hf. destruct fuel2; [lia|]. cbn [scan_loop].
    destruct (off >=? rd_max r) eqn:E9; [lia|]. rewrite G1, E2, E3, E4, E5, E6. fold off1. rewrite G7. apply A6. lia.
Qed.

Definition good (r : reader) : Prop := flens r /\ 0 <= rd_off r.

Lemma uv_scan_cut g m r r1' : cut (rd_file r) g -> m <= rd_max r -> good r ->
  uv_scan (onto g m r) = ScOk r1' ->
  exists r1, r1' = onto g m r1 /\ rd_file r1 = rd_file r /\ rd_max r1 = rd_max r /\ good r1 /\ uv_scan r = ScOk r1.
Proof.
  intros HC HM [HF HO] H. unfold uv_scan in *. cbn [onto rd_vars rd_off rd_file rd_max rd_callno rd_mark rd_flags rd_foff rd_init] in H.
  destruct (scan_cut g m (scan_fuel (onto g m r))
    (Rd (rd_vars r) (rd_off r) (rd_file r) (rd_max r) (rd_callno r + 1) (rd_mark r) (rd_flags r) (rd_foff r) (rd_init r))
    (rd_off r) r1' HC HM HF HO H) as (r1 & A1 & A2 & A3 & A4 & A5 & A6).
  exists r1. split; [exact A1|]. split; [exact A2|]. split; [exact A3|]. split; [split; assumption|].
  apply A6. unfold scan_fuel. cbn [onto rd_max]. lia.
Qed.

Lemma read_loop_cut g m fuel : forall r r1', cut (rd_file r) g -> m <= rd_max r -> good r ->
  read_loop fuel (onto g m r) = ScOk r1' ->
  exists r1, r1' = onto g m r1 /\ rd_file r1 = rd_file r /\ rd_max r1 = rd_max r /\ good r1 /\
    forall fuel2, (fuel <= fuel2)%nat -> read_loop fuel2 r = ScOk r1.
Proof.
  induction fuel as [|fuel IH]; intros r r1' HC HM HG; [discriminate|].
  cbn [read_loop]. destruct (uv_scan (onto g m r)) as [q|q|] eqn:E; try discriminate.
  destruct (uv_scan_cut g m r q HC HM HG E) as (q1 & A1 & A2 & A3 & A4 & A5). subst q.
  change (rd_init (onto g m q1)) with (rd_init q1). change (rd_checks (onto g m q1)) with (rd_checks q1).
  change (rfind (onto g m q1) "corr") with (rfind q1 "corr").
  destruct (negb (rd_init q1) && negb (rd_checks q1)) eqn:E1; [discriminate|].
  destruct (rfind q1 "corr") as [v|] eqn:E2; [|discriminate].
  set (r2 := Rd (rd_vars q1) (rd_off q1) (rd_file q1) (rd_max q1) (rd_callno q1) (rd_mark q1) (rd_flags q1)
     (if v_call v =? rd_callno q1 then rd_foff q1 + numchan (v_ty v) (v_flen v) else rd_foff q1) true).
  change (rd_callno (onto g m q1)) with (rd_callno q1).
  intro H. destruct (v_call v <? rd_callno q1) eqn:E3.
  - destruct (IH r2 r1') as (r1 & B1 & B2 & B3 & B4 & B5).
    + cbn [r2 rd_file]. rewrite A2. exact HC.
    + cbn [r2 rd_max]. rewrite A3. exact HM.
    + exact A4.
    + exact H.
    + exists r1. split; [exact B1|]. split; [rewrite B2; exact A2|]. split; [rewrite B3; exact A3|]. split; [exact B4|].
      intros fuel2 Hf. destruct fuel2; [lia|]. cbn [read_loop]. rewrite A5, E1, E2, E3. apply B5. lia.
  - inversion H; subst. exists r2. split; [reflexivity|]. split; [exact A2|]. split; [exact A3|]. split; [exact A4|].
    intros fuel2 Hf. destruct fuel2; [lia|]. cbn [read_loop]. rewrite A5, E1, E2, E3. reflexivity.
Qed.

Lemma uvread_cut g m nsize r : cut (rd_file r) g -> m <= rd_max r -> good r ->
  (exists x, snd (uvread nsize (onto g m r)) = RdRec x) ->
  snd (uvread nsize (onto g m r)) = snd (uvread nsize r) /\
  fst (uvread nsize (onto g m r)) = onto g m (fst (uvread nsize r)) /\
  rd_file (fst (uvread nsize r)) = rd_file r /\ rd_max (fst (uvread nsize r)) = rd_max r /\ good (fst (uvread nsize r)).
Proof.
  intros HC HM HG [x Hx]. unfold uvread in *.
  set (r0 := Rd (rd_vars r) (rd_off r) (rd_file r) (rd_max r) (rd_callno r) (rd_callno r + 1) (rd_flags r) (rd_foff r) (rd_init r)).
  change (Rd (rd_vars (onto g m r)) (rd_off (onto g m r)) (rd_file (onto g m r)) (rd_max (onto g m r))
     (rd_callno (onto g m r)) (rd_callno (onto g m r) + 1) (rd_flags (onto g m r)) (rd_foff (onto g m r))
     (rd_init (onto g m r))) with (onto g m r0) in *.
  change (rfind (onto g m r0) "corr") with (rfind r0 "corr") in *.
  destruct (rfind r0 "corr") as [v|] eqn:E1; [|discriminate Hx].
  destruct (read_loop (scan_fuel (onto g m r)) (onto g m r0)) as [q|q|] eqn:E2; try discriminate Hx.
  destruct (read_loop_cut g m _ r0 q HC HM HG E2) as (r1 & A1 & A2 & A3 & A4 & A5).
  rewrite (A5 (scan_fuel r)); [|unfold scan_fuel; cbn [onto rd_max]; lia].
  subst q. cbn [fst snd]. split; [reflexivity|]. split; [reflexivity|]. split; [exact A2|]. split; [exact A3|]. exact A4.
Qed.

Definition same_out (o o' : reader * rdres) : Prop :=
  snd o = snd o' /\ forall n, uvgetvr (fst o) n = uvgetvr (fst o') n.

(* the shortened stream gives the same answers, until it gives no record *)
Lemma reads_cut g m nsize k : forall r, cut (rd_file r) g -> m <= rd_max r -> good r ->
  exists j, (j <= k)%nat /\
    Forall2 same_out (firstn j (reads nsize k r)) (firstn j (reads nsize k (onto g m r))) /\
    (j = k \/ exists o, nth_error (reads nsize k (onto g m r)) j = Some o /\ (snd o = RdEof \/ snd o = RdErr)).
Proof.
  induction k as [|k IH]; intros r HC HM HG.
  { exists O. split; [lia|]. split; [constructor|]. left; reflexivity. }
  destruct (snd (uvread nsize (onto g m r))) as [x| |] eqn:E.
  - destruct (uvread_cut g m nsize r HC HM HG) as (B1 & B2 & B3 & B4 & B5); [exists x; exact E|].
    destruct (IH (fst (uvread nsize r))) as (j & J1 & J2 & J3);
      [rewrite B3; exact HC|rewrite B4; exact HM|exact B5|].
    exists (S j). split; [lia|]. cbn [reads firstn nth_error]. rewrite B2. split; [|destruct J3 as [J3|J3]; [left; lia|right; exact J3]].
    constructor; [|exact J2]. split; [now rewrite B1|]. intro n. rewrite B2. reflexivity.
  - exists O. split; [lia|]. split; [constructor|]. right. exists (uvread nsize (onto g m r)). split; [reflexivity|]. left; exact E.
  - exists O. split; [lia|]. split; [constructor|]. right. exists (uvread nsize (onto g m r)). split; [reflexivity|]. right; exact E.
Qed.

(* ---------- the same bytes ---------- *)
Definition mapsc (g : file) (m : Z) (s : scanres) : scanres :=
  match s with ScOk r => ScOk (onto g m r) | ScEof r => ScEof (onto g m r) | ScErr => ScErr end.
Definition sc_good (f : file) (m : Z) (s : scanres) : Prop :=
  match s with ScOk r | ScEof r => rd_file r = f /\ rd_max r = m /\ good r | ScErr => True end.

Definition same_bytes (f g : file) : Prop := forall a n, 0 <= a -> fget g a n = fget f a n.

Lemma same_of f g : f_size g = f_size f -> (forall p, 0 <= p < f_size g -> f_at g p = f_at f p) -> same_bytes f g.
Proof.
  intros H1 H2 a n Ha. unfold fget. rewrite H1. destruct (a + n >? f_size f) eqn:E; [reflexivity|].
  f_equal. apply map_ext_in. intros k Hk. apply in_seq in Hk. apply H2. lia.
Qed.

Lemma scan_same g fuel : forall r off, same_bytes (rd_file r) g -> good r -> 0 <= off ->
  scan_loop fuel (onto g (rd_max r) r) off = mapsc g (rd_max r) (scan_loop fuel r off) /\
  sc_good (rd_file r) (rd_max r) (scan_loop fuel r off).
Proof.
  induction fuel as [|fuel IH]; intros r off HS [HF HR] HO; [split; exact I || reflexivity|].
  cbn [scan_loop]. cbn [onto rd_max rd_file rd_vars rd_callno rd_mark rd_flags rd_foff rd_init].
  assert (HG : good r) by (split; assumption).
  assert (SG : sc_good (rd_file r) (rd_max r) (ScEof r)) by (split; [reflexivity|split; [reflexivity|exact HG]]).
  destruct (off >=? rd_max r) eqn:E0; [split; [reflexivity|exact SG]|].
  rewrite (HS off 4 HO). destruct (fget (rd_file r) off 4) as [s|] eqn:E1; [|split; [reflexivity|exact SG]].
  destruct (nth 2 s 0 =? VAR_EOR) eqn:E2.
  { split; [reflexivity|]. split; [reflexivity|]. split; [reflexivity|]. split; [exact HF|cbn [rd_off]; lia]. }
  destruct (nth 0 s 0 >=? 128) eqn:E3; [split; reflexivity|].
  destruct (nth_error (rd_vars r) (Z.to_nat (nth 0 s 0))) as [v|] eqn:E4; [|split; reflexivity].
  pose proof (nth_flen _ _ _ HF E4) as HV.
  destruct (nth 2 s 0 =? VAR_SIZE) eqn:E5.
  - assert (HO4 : 0 <= off + 4) by lia. rewrite (HS _ 4 HO4).
    destruct (fget (rd_file r) (off + 4) 4) as [b|] eqn:E6; [|split; reflexivity].
    destruct (rd4 b <=? 0) eqn:E7; [split; reflexivity|].
    destruct (negb (rd4 b mod ext (v_ty v) =? 0)) eqn:E8; [split; reflexivity|].
    set (r0 := with_vars r (upd (rd_vars r) (Z.to_nat (nth 0 s 0))
       (RV (v_name v) (v_ty v) (rd4 b) (Some (realloc (v_buf v) (rd4 b))) (rd_callno r)))).
    assert (HG0 : good r0). { split; [apply upd_Forall; [exact HF|]; cbn [v_flen]; lia|exact HR]. }
    assert (HO8 : 0 <= off + 8) by lia.
    exact (IH r0 (off + 8) HS HG0 HO8).
  - destruct (nth 2 s 0 =? VAR_DATA) eqn:E6; [|split; reflexivity].
    set (off1 := off + mroundup 4 (ext (v_ty v))).
    assert (HO1 : 0 <= off1). { subst off1. pose proof (mroundup_pos 4 (ext (v_ty v))). pose proof (ext_pos (v_ty v)). lia. }
    rewrite (HS _ (v_flen v) HO1).
    destruct (fget (rd_file r) off1 (v_flen v)) as [b|] eqn:E7; [|split; reflexivity].
    set (r0 := with_vars r (upd (rd_vars r) (Z.to_nat (nth 0 s 0))
       (RV (v_name v) (v_ty v) (v_flen v) (Some b) (rd_callno r)))).
    assert (HG0 : good r0). { split; [apply upd_Forall; [exact HF|exact HV]|exact HR]. }
    assert (HO8 : 0 <= mroundup (off1 + v_flen v) 8) by (apply mroundup_pos; lia).
    exact (IH r0 _ HS HG0 HO8).
Qed.

Lemma uv_scan_same g r : same_bytes (rd_file r) g -> good r ->
  uv_scan (onto g (rd_max r) r) = mapsc g (rd_max r) (uv_scan r) /\ sc_good (rd_file r) (rd_max r) (uv_scan r).
Proof.
  intros HS HG. unfold uv_scan.
  exact (scan_same g _ (Rd (rd_vars r) (rd_off r) (rd_file r) (rd_max r) (rd_callno r + 1) (rd_mark r) (rd_flags r)
     (rd_foff r) (rd_init r)) (rd_off r) HS HG (proj2 HG)).
Qed.

Lemma read_loop_same_at g f m fuel : forall r, rd_file r = f -> rd_max r = m -> same_bytes f g -> good r ->
  read_loop fuel (onto g m r) = mapsc g m (read_loop fuel r) /\
  sc_good f m (read_loop fuel r).
Proof.
  induction fuel as [|fuel IH]; intros r Ef Em HS HG; [split; reflexivity|].
  cbn [read_loop]. assert (HS' := HS). rewrite <- Ef in HS'.
  destruct (uv_scan_same g r HS' HG) as [E1 E2]. rewrite Ef, Em in *. rewrite E1. clear E1.
  destruct (uv_scan r) as [q|q|]; cbn [mapsc]; [|split; [reflexivity|exact E2]|split; reflexivity].
  destruct E2 as (A1 & A2 & A3).
  change (rd_init (onto g m q)) with (rd_init q). change (rd_checks (onto g m q)) with (rd_checks q).
  change (rfind (onto g m q) "corr") with (rfind q "corr").
  change (rd_callno (onto g m q)) with (rd_callno q).
  destruct (negb (rd_init q) && negb (rd_checks q)) eqn:E1; [split; reflexivity|].
  destruct (rfind q "corr") as [v|] eqn:E2; [|split; reflexivity].
  set (r2 := Rd (rd_vars q) (rd_off q) (rd_file q) (rd_max q) (rd_callno q) (rd_mark q) (rd_flags q)
     (if v_call v =? rd_callno q then rd_foff q + numchan (v_ty v) (v_flen v) else rd_foff q) true).
  destruct (v_call v <? rd_callno q) eqn:E3.
  - exact (IH r2 A1 A2 HS A3).
  - cbn [mapsc]. split; [reflexivity|]. cbn [sc_good]. split; [exact A1|]. split; [exact A2|exact A3].
Qed.

Lemma read_loop_same g fuel r : same_bytes (rd_file r) g -> good r ->
  read_loop fuel (onto g (rd_max r) r) = mapsc g (rd_max r) (read_loop fuel r) /\
  sc_good (rd_file r) (rd_max r) (read_loop fuel r).
Proof. intros. apply read_loop_same_at; auto. Qed.

Lemma uvread_same g nsize r : same_bytes (rd_file r) g -> good r ->
  snd (uvread nsize (onto g (rd_max r) r)) = snd (uvread nsize r) /\
  fst (uvread nsize (onto g (rd_max r) r)) = onto g (rd_max r) (fst (uvread nsize r)) /\
  rd_file (fst (uvread nsize r)) = rd_file r /\ rd_max (fst (uvread nsize r)) = rd_max r /\ good (fst (uvread nsize r)).
Proof.
  intros HS HG. unfold uvread.
  set (r0 := Rd (rd_vars r) (rd_off r) (rd_file r) (rd_max r) (rd_callno r) (rd_callno r + 1) (rd_flags r) (rd_foff r) (rd_init r)).
  set (m := rd_max r).
  change (Rd (rd_vars (onto g m r)) (rd_off (onto g m r)) (rd_file (onto g m r)) (rd_max (onto g m r))
     (rd_callno (onto g m r)) (rd_callno (onto g m r) + 1) (rd_flags (onto g m r)) (rd_foff (onto g m r))
     (rd_init (onto g m r))) with (onto g m r0) in *.
  change (rfind (onto g m r0) "corr") with (rfind r0 "corr") in *.
  destruct (rfind r0 "corr") as [v|] eqn:E1; [|cbn [fst snd]; repeat split; try apply HG].
  change (scan_fuel (onto g m r)) with (scan_fuel r). change m with (rd_max r0).
  destruct (read_loop_same g (scan_fuel r) r0 HS HG) as [E2 E3]. rewrite E2.
  destruct (read_loop (scan_fuel r) r0) as [q|q|]; cbn [mapsc fst snd].
  - destruct E3 as (A1 & A2 & A3). split; [reflexivity|]. split; [reflexivity|]. split; [exact A1|]. split; [exact A2|exact A3].
  - destruct E3 as (A1 & A2 & A3). split; [reflexivity|]. split; [reflexivity|]. split; [exact A1|]. split; [exact A2|exact A3].
  - repeat split; try apply HG.
Qed.

Lemma reads_same g nsize k : forall r, same_bytes (rd_file r) g -> good r ->
  Forall2 same_out (reads nsize k r) (reads nsize k (onto g (rd_max r) r)).
Proof.
  induction k as [|k IH]; intros r HS HG; cbn [reads]; [constructor|].
  destruct (uvread_same g nsize r HS HG) as (B1 & B2 & B3 & B4 & B5).
  constructor.
  - split; [now rewrite B1|]. intro n. rewrite B2. reflexivity.
  - rewrite B2. specialize (IH (fst (uvread nsize r))). rewrite B3, B4 in IH. apply IH; assumption.
Qed.
