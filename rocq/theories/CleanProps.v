(* C37-C39: CLEAN. Exact real (complex) arithmetic. *)
From Coq Require Import Reals Lra.
From Verif Require Import Base CleanModel CleanSpec CleanProofs CleanProofs2.
Ltac Zify.zify_post_hook ::= idtac.
Open Scope R_scope.

(* aipy.deconv.clean for each array kind; `fuel` bounds the turns looked at, the result is
   None if the call has not returned by then *)
Definition clean1r dim ker gain tol maxiter stop pos fuel im mdl area :=
  clean_py 0 Rminus (conv1 dim ker) (fun ar m r => clean_1d_r dim ker ar gain tol maxiter stop pos fuel m r) maxiter im mdl area.
Definition clean2r d1 d2 ker gain tol maxiter stop pos fuel im mdl area :=
  clean_py 0 Rminus (conv2 d1 d2 ker) (fun ar m r => clean_2d_r d1 d2 ker ar gain tol maxiter stop pos fuel m r) maxiter im mdl area.
Definition clean1c dim ker gain tol maxiter stop pos fuel im mdl area :=
  clean_py (0, 0) csub (cconv1 dim ker) (fun ar m r => clean_1d_c dim ker ar gain tol maxiter stop pos fuel m r) maxiter im mdl area.
Definition clean2c d1 d2 ker gain tol maxiter stop pos fuel im mdl area :=
  clean_py (0, 0) csub (cconv2 d1 d2 ker) (fun ar m r => clean_2d_c d1 d2 ker ar gain tol maxiter stop pos fuel m r) maxiter im mdl area.

Lemma conv1_zero dim ker c : conv1 dim ker (fun _ => 0) c = 0.
Proof. unfold conv1. apply rsum_const0. intros. ring. Qed.
Lemma conv2_zero d1 d2 ker c : conv2 d1 d2 ker (fun _ => 0) c = 0.
Proof. unfold conv2. apply rsum_const0. intros. apply rsum_const0. intros. ring. Qed.
Lemma cconv1_zero dim ker c : cconv1 dim ker (fun _ => (0, 0)) c = (0, 0).
Proof. unfold cconv1, conv1, re, im. cbn [fst snd]. rewrite !rsum_const0 by (intros; ring). f_equal; ring. Qed.
Lemma cconv2_zero d1 d2 ker c : cconv2 d1 d2 ker (fun _ => (0, 0)) c = (0, 0).
Proof. unfold cconv2, conv2, re, im. cbn [fst snd]. rewrite !rsum_const0 by (intros; apply rsum_const0; intros; ring). f_equal; ring. Qed.
Lemma csub_add (a b : C) : cadd (csub a b) b = a.
Proof. destruct a, b. unfold cadd, csub. cbn. f_equal; ring. Qed.
Lemma cadd_zero (a : C) : cadd a (0, 0) = a.
Proof. destruct a. unfold cadd. cbn. f_equal; ring. Qed.

(* ---- C37: image = residual + kernel convolved with model, whenever clean returns ---- *)
Theorem C37_conserved_1d_real dim ker gain tol maxiter stop pos fuel image mdl area m r t it ok :
  (0 < dim)%nat -> clean1r dim ker gain tol maxiter stop pos fuel image mdl area = Some (m, r, t, it, ok) ->
  forall c, inside1 dim c -> image c = r c + conv1 dim ker m c.
Proof.
  intros D H c HC. unfold clean1r, clean_py in H. destruct mdl as [m0|]; (destruct (clean_1d_r _ _ _ _ _ _ _ _ _ _ _) as [[[rv m'] r']|] eqn:E in H; [|discriminate]);
    injection H as <- <- _ _ _; apply inst_1d_r in E; auto; destruct E as (E & _); rewrite (E c HC).
  - ring. - rewrite conv1_zero. ring.
Qed.
Theorem C37_conserved_2d_real d1 d2 ker gain tol maxiter stop pos fuel image mdl area m r t it ok :
  (0 < d1)%nat -> (0 < d2)%nat -> clean2r d1 d2 ker gain tol maxiter stop pos fuel image mdl area = Some (m, r, t, it, ok) ->
  forall c, inside2 d1 d2 c -> image c = r c + conv2 d1 d2 ker m c.
Proof.
  intros D1 D2 H c HC. unfold clean2r, clean_py in H. destruct mdl as [m0|]; (destruct (clean_2d_r _ _ _ _ _ _ _ _ _ _ _ _) as [[[rv m'] r']|] eqn:E in H; [|discriminate]);
    injection H as <- <- _ _ _; apply inst_2d_r in E; auto; destruct E as (E & _); rewrite (E c HC).
  - ring. - rewrite conv2_zero. ring.
Qed.
Theorem C37_conserved_1d_complex dim ker gain tol maxiter stop pos fuel image mdl area m r t it ok :
  (0 < dim)%nat -> clean1c dim ker gain tol maxiter stop pos fuel image mdl area = Some (m, r, t, it, ok) ->
  forall c, inside1 dim c -> image c = cadd (r c) (cconv1 dim ker m c).
Proof.
  intros D H c HC. unfold clean1c, clean_py in H. destruct mdl as [m0|]; (destruct (clean_1d_c _ _ _ _ _ _ _ _ _ _ _) as [[[rv m'] r']|] eqn:E in H; [|discriminate]);
    injection H as <- <- _ _ _; apply inst_1d_c in E; auto; destruct E as (E & _); rewrite (E c HC).
  - rewrite csub_add. auto. - rewrite cconv1_zero, cadd_zero. auto.
Qed.
Theorem C37_conserved_2d_complex d1 d2 ker gain tol maxiter stop pos fuel image mdl area m r t it ok :
  (0 < d1)%nat -> (0 < d2)%nat -> clean2c d1 d2 ker gain tol maxiter stop pos fuel image mdl area = Some (m, r, t, it, ok) ->
  forall c, inside2 d1 d2 c -> image c = cadd (r c) (cconv2 d1 d2 ker m c).
Proof.
  intros D1 D2 H c HC. unfold clean2c, clean_py in H. destruct mdl as [m0|]; (destruct (clean_2d_c _ _ _ _ _ _ _ _ _ _ _ _) as [[[rv m'] r']|] eqn:E in H; [|discriminate]);
    injection H as <- <- _ _ _; apply inst_2d_c in E; auto; destruct E as (E & _); rewrite (E c HC).
  - rewrite csub_add. auto. - rewrite cconv2_zero, cadd_zero. auto.
Qed.

(* ---- C38: nothing outside the mask, one component at a time at a maximum inside it ---- *)
Lemma zero_not_area {I} (area : I -> Z) c : area c = 0%Z -> in_area area c = false.
Proof. intros H. unfold in_area. rewrite H. reflexivity. Qed.
Theorem C38_mask_1d_real dim ker gain tol maxiter stop pos fuel image mdl area m r t it ok :
  (0 < dim)%nat -> clean1r dim ker gain tol maxiter stop pos fuel image mdl (Some area) = Some (m, r, t, it, ok) ->
  forall c, area c = 0%Z -> m c = match mdl with Some m0 => m0 c | None => 0 end.
Proof.
  intros D H c HC. apply zero_not_area in HC. unfold clean1r, clean_py in H. destruct mdl as [m0|]; (destruct (clean_1d_r _ _ _ _ _ _ _ _ _ _ _) as [[[rv m'] r']|] eqn:E in H; [|discriminate]);
    injection H as <- <- _ _ _; apply inst_1d_r in E; auto; destruct E as (_ & E & _); apply E; auto.
Qed.
Theorem C38_mask_2d_real d1 d2 ker gain tol maxiter stop pos fuel image mdl area m r t it ok :
  (0 < d1)%nat -> (0 < d2)%nat -> clean2r d1 d2 ker gain tol maxiter stop pos fuel image mdl (Some area) = Some (m, r, t, it, ok) ->
  forall c, area c = 0%Z -> m c = match mdl with Some m0 => m0 c | None => 0 end.
Proof.
  intros D1 D2 H c HC. apply zero_not_area in HC. unfold clean2r, clean_py in H. destruct mdl as [m0|]; (destruct (clean_2d_r _ _ _ _ _ _ _ _ _ _ _ _) as [[[rv m'] r']|] eqn:E in H; [|discriminate]);
    injection H as <- <- _ _ _; apply inst_2d_r in E; auto; destruct E as (_ & E & _); apply E; auto.
Qed.
Theorem C38_mask_1d_complex dim ker gain tol maxiter stop pos fuel image mdl area m r t it ok :
  (0 < dim)%nat -> clean1c dim ker gain tol maxiter stop pos fuel image mdl (Some area) = Some (m, r, t, it, ok) ->
  forall c, area c = 0%Z -> m c = match mdl with Some m0 => m0 c | None => (0, 0) end.
Proof.
  intros D H c HC. apply zero_not_area in HC. unfold clean1c, clean_py in H. destruct mdl as [m0|]; (destruct (clean_1d_c _ _ _ _ _ _ _ _ _ _ _) as [[[rv m'] r']|] eqn:E in H; [|discriminate]);
    injection H as <- <- _ _ _; apply inst_1d_c in E; auto; destruct E as (_ & E & _); apply E; auto.
Qed.
Theorem C38_mask_2d_complex d1 d2 ker gain tol maxiter stop pos fuel image mdl area m r t it ok :
  (0 < d1)%nat -> (0 < d2)%nat -> clean2c d1 d2 ker gain tol maxiter stop pos fuel image mdl (Some area) = Some (m, r, t, it, ok) ->
  forall c, area c = 0%Z -> m c = match mdl with Some m0 => m0 c | None => (0, 0) end.
Proof.
  intros D1 D2 H c HC. apply zero_not_area in HC. unfold clean2c, clean_py in H. destruct mdl as [m0|]; (destruct (clean_2d_c _ _ _ _ _ _ _ _ _ _ _ _) as [[[rv m'] r']|] eqn:E in H; [|discriminate]);
    injection H as <- <- _ _ _; apply inst_2d_c in E; auto; destruct E as (_ & E & _); apply E; auto.
Qed.

(* masks whose entries fit 32 bits *)
Definition plain_mask {I} (area : I -> Z) : Prop := forall c, (0 <= area c < 4294967296)%Z.
Lemma plain_area {I} (area : I -> Z) c : plain_mask area -> (in_area area c = true <-> area c <> 0%Z).
Proof.
  intros P. unfold in_area. rewrite Z.mod_small by apply P. rewrite negb_true_iff, Z.eqb_neq. tauto.
Qed.
(* a cell where a component may go: in the mask, and positive if pos_def *)
Definition candidate {I} (area : I -> Z) (pos : bool) (r : I -> R) (c : I) : Prop := area c <> 0%Z /\ (pos = true -> 0 < r c).
Lemma candidate_ok {I} (area : I -> Z) pos r c : plain_mask area -> (qualifies (fun v => Rltb 0 v) area pos r c <-> candidate area pos r c).
Proof.
  intros P. unfold qualifies, candidate. rewrite (plain_area area c P). rewrite Rltb_true. destruct pos; intuition congruence.
Qed.
(* the (k+1)-th iteration changes the model of the k-th at one cell: gain times the largest
   residual, divided by the kernel's peak *)
Theorem C38_component_1d_real dim ker area gain tol pos fuel mdl res k m' r' :
  (0 < dim)%nat -> (1 <= k)%Z -> plain_mask area -> (exists n, inside1 dim n /\ area n <> 0%Z /\ ker n <> 0) ->
  clean_1d_r dim ker area gain tol (k + 1) true pos fuel mdl res = Some ((k + 1)%Z, m', r') ->
  exists m r, clean_1d_r dim ker area gain tol k true pos fuel mdl res = Some (k, m, r) /\
  ((exists a n0, inside1 dim a /\ candidate area pos r a /\ (forall c, inside1 dim c -> candidate area pos r c -> Rabs (r c) <= Rabs (r a)) /\
      inside1 dim n0 /\ area n0 <> 0%Z /\ (forall n, inside1 dim n -> area n <> 0%Z -> Rabs (ker n) <= Rabs (ker n0)) /\
      m' a = m a + gain * (r a / ker n0) /\ (forall c, c <> a -> m' c = m c)) \/
   (forall c, inside1 dim c -> ~ candidate area pos r c)).
Proof.
  intros D K P (n & N1 & N2 & N3) H. destruct (step_1d_r _ _ _ _ _ _ _ _ _ _ _ _ D K H) as (m & r & E & S).
  exists m, r. split; auto. destruct S as [(a & A1 & A2 & A3 & A4 & A5)|S].
  - left. destruct (peak_r (cells1 dim) ker area) as (n0 & B1 & B2 & B3 & B4 & B5).
    { exists n. split; [apply in_cells1; auto|]. split; auto. apply plain_area; auto. }
    exists a, n0. split; [apply in_cells1; auto|]. split; [apply candidate_ok; auto|]. split.
    { intros c C1 C2. apply sqr_le_abs. apply A3; [apply in_cells1; auto | apply candidate_ok; auto]. }
    split; [apply in_cells1; auto|]. split; [apply plain_area; auto|]. split.
    { intros c C1 C2. apply B5; [apply in_cells1; auto | apply plain_area; auto]. }
    split; auto. rewrite A4, B4. unfold Rdiv. ring.
  - right. intros c C1 C2. apply (S c); [apply in_cells1; auto | apply candidate_ok; auto].
Qed.
Theorem C38_component_2d_real d1 d2 ker area gain tol pos fuel mdl res k m' r' :
  (0 < d1)%nat -> (0 < d2)%nat -> (1 <= k)%Z -> plain_mask area -> (exists n, inside2 d1 d2 n /\ area n <> 0%Z /\ ker n <> 0) ->
  clean_2d_r d1 d2 ker area gain tol (k + 1) true pos fuel mdl res = Some ((k + 1)%Z, m', r') ->
  exists m r, clean_2d_r d1 d2 ker area gain tol k true pos fuel mdl res = Some (k, m, r) /\
  ((exists a n0, inside2 d1 d2 a /\ candidate area pos r a /\ (forall c, inside2 d1 d2 c -> candidate area pos r c -> Rabs (r c) <= Rabs (r a)) /\
      inside2 d1 d2 n0 /\ area n0 <> 0%Z /\ (forall n, inside2 d1 d2 n -> area n <> 0%Z -> Rabs (ker n) <= Rabs (ker n0)) /\
      m' a = m a + gain * (r a / ker n0) /\ (forall c, c <> a -> m' c = m c)) \/
   (forall c, inside2 d1 d2 c -> ~ candidate area pos r c)).
Proof.
  intros D1 D2 K P (n & N1 & N2 & N3) H. destruct (step_2d_r _ _ _ _ _ _ _ _ _ _ _ _ _ D1 D2 K H) as (m & r & E & S).
  exists m, r. split; auto. destruct S as [(a & A1 & A2 & A3 & A4 & A5)|S].
  - left. destruct (peak_r (cells2 d1 d2) ker area) as (n0 & B1 & B2 & B3 & B4 & B5).
    { exists n. split; [apply in_cells2; auto|]. split; auto. apply plain_area; auto. }
    exists a, n0. split; [apply in_cells2; auto|]. split; [apply candidate_ok; auto|]. split.
    { intros c C1 C2. apply sqr_le_abs. apply A3; [apply in_cells2; auto | apply candidate_ok; auto]. }
    split; [apply in_cells2; auto|]. split; [apply plain_area; auto|]. split.
    { intros c C1 C2. apply B5; [apply in_cells2; auto | apply plain_area; auto]. }
    split; auto. rewrite A4, B4. unfold Rdiv. ring.
  - right. intros c C1 C2. apply (S c); [apply in_cells2; auto | apply candidate_ok; auto].
Qed.
(* complex: kernel peak times (change / gain) = residual, so the change is gain * residual / peak *)
Definition cabs2 (z : R * R) : R := fst z * fst z + snd z * snd z.
Lemma qual_c {I} (area : I -> Z) (r : I -> C) c : plain_mask area -> (qualifies (fun _ => true) area false r c <-> area c <> 0%Z).
Proof. intros P. unfold qualifies. rewrite (plain_area area c P). intuition. Qed.
Theorem C38_component_1d_complex dim ker area gain tol pos fuel mdl res k m' r' :
  (0 < dim)%nat -> (1 <= k)%Z -> plain_mask area -> (exists n, inside1 dim n /\ area n <> 0%Z /\ ker n <> (0, 0)) ->
  clean_1d_c dim ker area gain tol (k + 1) true pos fuel mdl res = Some ((k + 1)%Z, m', r') ->
  exists m r, clean_1d_c dim ker area gain tol k true pos fuel mdl res = Some (k, m, r) /\
  exists a n0 q, inside1 dim a /\ area a <> 0%Z /\ (forall c, inside1 dim c -> area c <> 0%Z -> cabs2 (r c) <= cabs2 (r a)) /\
      inside1 dim n0 /\ area n0 <> 0%Z /\ (forall n, inside1 dim n -> area n <> 0%Z -> cabs2 (ker n) <= cabs2 (ker n0)) /\
      cmul (ker n0) q = r a /\ m' a = cadd (m a) (gain * fst q, gain * snd q) /\ (forall c, c <> a -> m' c = m c).
Proof.
  intros D K P (n & N1 & N2 & N3) H. destruct (step_1d_c _ _ _ _ _ _ _ _ _ _ _ _ D K H) as (m & r & E & S).
  exists m, r. split; auto. destruct S as [(a & A1 & A2 & A3 & A4 & A5)|S].
  - destruct (peak_c (cells1 dim) ker area) as (n0 & B1 & B2 & B3 & B5).
    { exists n. split; [apply in_cells1; auto|]. split; auto. apply plain_area; auto. }
    exists a, n0, (cmul (r a) (kernel_gain (cells1 dim) (0, 0) cnorm2 cinverse ker area)).
    split; [apply in_cells1; auto|]. split; [apply (qual_c area r); auto|]. split.
    { intros c C1 C2. apply A3; [apply in_cells1; auto | apply qual_c; auto]. }
    split; [apply in_cells1; auto|]. split; [apply plain_area; auto|]. split.
    { intros c C1 C2. apply B5; [apply in_cells1; auto | apply plain_area; auto]. }
    split; [|auto]. rewrite (Rmul_comm cring (r a)), (Rmul_assoc cring), B3. apply (Rmul_1_l cring).
  - exfalso. apply (S n); [apply in_cells1; auto | apply qual_c; auto].
Qed.
Theorem C38_component_2d_complex d1 d2 ker area gain tol pos fuel mdl res k m' r' :
  (0 < d1)%nat -> (0 < d2)%nat -> (1 <= k)%Z -> plain_mask area -> (exists n, inside2 d1 d2 n /\ area n <> 0%Z /\ ker n <> (0, 0)) ->
  clean_2d_c d1 d2 ker area gain tol (k + 1) true pos fuel mdl res = Some ((k + 1)%Z, m', r') ->
  exists m r, clean_2d_c d1 d2 ker area gain tol k true pos fuel mdl res = Some (k, m, r) /\
  exists a n0 q, inside2 d1 d2 a /\ area a <> 0%Z /\ (forall c, inside2 d1 d2 c -> area c <> 0%Z -> cabs2 (r c) <= cabs2 (r a)) /\
      inside2 d1 d2 n0 /\ area n0 <> 0%Z /\ (forall n, inside2 d1 d2 n -> area n <> 0%Z -> cabs2 (ker n) <= cabs2 (ker n0)) /\
      cmul (ker n0) q = r a /\ m' a = cadd (m a) (gain * fst q, gain * snd q) /\ (forall c, c <> a -> m' c = m c).
Proof.
  intros D1 D2 K P (n & N1 & N2 & N3) H. destruct (step_2d_c _ _ _ _ _ _ _ _ _ _ _ _ _ D1 D2 K H) as (m & r & E & S).
  exists m, r. split; auto. destruct S as [(a & A1 & A2 & A3 & A4 & A5)|S].
  - destruct (peak_c (cells2 d1 d2) ker area) as (n0 & B1 & B2 & B3 & B5).
    { exists n. split; [apply in_cells2; auto|]. split; auto. apply plain_area; auto. }
    exists a, n0, (cmul (r a) (kernel_gain (cells2 d1 d2) (0, 0) cnorm2 cinverse ker area)).
    split; [apply in_cells2; auto|]. split; [apply (qual_c area r); auto|]. split.
    { intros c C1 C2. apply A3; [apply in_cells2; auto | apply qual_c; auto]. }
    split; [apply in_cells2; auto|]. split; [apply plain_area; auto|]. split.
    { intros c C1 C2. apply B5; [apply in_cells2; auto | apply plain_area; auto]. }
    split; [|auto]. rewrite (Rmul_comm cring (r a)), (Rmul_assoc cring), B3. apply (Rmul_1_l cring).
  - exfalso. apply (S n); [apply in_cells2; auto | apply qual_c; auto].
Qed.
(* pos_def with a kernel whose peak is positive never lowers the model *)
Theorem C38_pos_def_1d dim ker area gain tol maxiter stop fuel mdl res rv m r n1 :
  (0 < dim)%nat -> 0 <= gain -> plain_mask area ->
  inside1 dim n1 -> area n1 <> 0%Z -> 0 < ker n1 -> (forall n, inside1 dim n -> area n <> 0%Z -> - ker n < ker n1) ->
  clean_1d_r dim ker area gain tol maxiter stop true fuel mdl res = Some (rv, m, r) -> forall c, mdl c <= m c.
Proof.
  intros D G P N1 N2 N3 N4. apply grow_1d_r; auto. apply (peak_positive _ _ _ n1); auto; [apply in_cells1; auto | apply plain_area; auto|].
  intros n A B. apply N4; [apply in_cells1; auto | apply plain_area; auto].
Qed.
Theorem C38_pos_def_2d d1 d2 ker area gain tol maxiter stop fuel mdl res rv m r n1 :
  (0 < d1)%nat -> (0 < d2)%nat -> 0 <= gain -> plain_mask area ->
  inside2 d1 d2 n1 -> area n1 <> 0%Z -> 0 < ker n1 -> (forall n, inside2 d1 d2 n -> area n <> 0%Z -> - ker n < ker n1) ->
  clean_2d_r d1 d2 ker area gain tol maxiter stop true fuel mdl res = Some (rv, m, r) -> forall c, mdl c <= m c.
Proof.
  intros D1 D2 G P N1 N2 N3 N4. apply grow_2d_r; auto. apply (peak_positive _ _ _ n1); auto; [apply in_cells2; auto | apply plain_area; auto|].
  intros n A B. apply N4; [apply in_cells2; auto | apply plain_area; auto].
Qed.

(* ---- C39: stop_if_div: clean returns, and never with a residual worse than at the start ---- *)
Definition start_res {I V} (sub : V -> V -> V) (conv : (I -> V) -> I -> V) (image : I -> V) (mdl : option (I -> V)) : I -> V :=
  match mdl with Some m => fun i => sub (image i) (conv m i) | None => image end.
Theorem C39_stop_1d_real dim ker gain tol maxiter pos fuel image mdl area : (0 < dim)%nat -> (Z.to_nat maxiter < fuel)%nat ->
  exists m r t it ok, clean1r dim ker gain tol maxiter true pos fuel image mdl area = Some (m, r, t, it, ok) /\
  rms1 dim r <= rms1 dim (start_res Rminus (conv1 dim ker) image mdl) /\ (0 <= maxiter -> it <= maxiter)%Z.
Proof.
  intros D L. unfold clean1r, clean_py. destruct mdl as [m0|]; cbn [start_res];
  match goal with |- context [clean_1d_r dim ker ?ar gain tol maxiter true pos fuel ?m ?r] =>
    destruct (ends_1d_r dim ker ar gain tol maxiter pos fuel m r D L) as [[[rv m'] r'] E]; rewrite E end;
  apply inst_1d_r in E; auto; destruct E as (_ & _ & E & E2 & _); do 5 eexists; (split; [reflexivity|]); (split; [apply E; auto | lia]).
Qed.
Theorem C39_stop_2d_real d1 d2 ker gain tol maxiter pos fuel image mdl area : (0 < d1)%nat -> (0 < d2)%nat -> (Z.to_nat maxiter < fuel)%nat ->
  exists m r t it ok, clean2r d1 d2 ker gain tol maxiter true pos fuel image mdl area = Some (m, r, t, it, ok) /\
  rms2 d1 d2 r <= rms2 d1 d2 (start_res Rminus (conv2 d1 d2 ker) image mdl) /\ (0 <= maxiter -> it <= maxiter)%Z.
Proof.
  intros D1 D2 L. unfold clean2r, clean_py. destruct mdl as [m0|]; cbn [start_res];
  match goal with |- context [clean_2d_r d1 d2 ker ?ar gain tol maxiter true pos fuel ?m ?r] =>
    destruct (ends_2d_r d1 d2 ker ar gain tol maxiter pos fuel m r D1 D2 L) as [[[rv m'] r'] E]; rewrite E end;
  apply inst_2d_r in E; auto; destruct E as (_ & _ & E & E2 & _); do 5 eexists; (split; [reflexivity|]); (split; [apply E; auto | lia]).
Qed.
Theorem C39_stop_1d_complex dim ker gain tol maxiter pos fuel image mdl area : (0 < dim)%nat -> (Z.to_nat maxiter < fuel)%nat ->
  exists m r t it ok, clean1c dim ker gain tol maxiter true pos fuel image mdl area = Some (m, r, t, it, ok) /\
  crms1 dim r <= crms1 dim (start_res csub (cconv1 dim ker) image mdl) /\ (0 <= maxiter -> it <= maxiter)%Z.
Proof.
  intros D L. unfold clean1c, clean_py. destruct mdl as [m0|]; cbn [start_res];
  match goal with |- context [clean_1d_c dim ker ?ar gain tol maxiter true pos fuel ?m ?r] =>
    destruct (ends_1d_c dim ker ar gain tol maxiter pos fuel m r D L) as [[[rv m'] r'] E]; rewrite E end;
  apply inst_1d_c in E; auto; destruct E as (_ & _ & E & E2 & _); do 5 eexists; (split; [reflexivity|]); (split; [apply E; auto | lia]).
Qed.
Theorem C39_stop_2d_complex d1 d2 ker gain tol maxiter pos fuel image mdl area : (0 < d1)%nat -> (0 < d2)%nat -> (Z.to_nat maxiter < fuel)%nat ->
  exists m r t it ok, clean2c d1 d2 ker gain tol maxiter true pos fuel image mdl area = Some (m, r, t, it, ok) /\
  crms2 d1 d2 r <= crms2 d1 d2 (start_res csub (cconv2 d1 d2 ker) image mdl) /\ (0 <= maxiter -> it <= maxiter)%Z.
Proof.
  intros D1 D2 L. unfold clean2c, clean_py. destruct mdl as [m0|]; cbn [start_res];
  match goal with |- context [clean_2d_c d1 d2 ker ?ar gain tol maxiter true pos fuel ?m ?r] =>
    destruct (ends_2d_c d1 d2 ker ar gain tol maxiter pos fuel m r D1 D2 L) as [[[rv m'] r'] E]; rewrite E end;
  apply inst_2d_c in E; auto; destruct E as (_ & _ & E & E2 & _); do 5 eexists; (split; [reflexivity|]); (split; [apply E; auto | lia]).
Qed.
(* without stop_if_div the same holds if the call ends on maxiter *)
Theorem C39_maxiter_1d_real dim ker gain tol maxiter stop pos fuel image mdl area m r it ok : (0 < dim)%nat -> (0 <= maxiter)%Z ->
  clean1r dim ker gain tol maxiter stop pos fuel image mdl area = Some (m, r, TMaxiter, it, ok) ->
  rms1 dim r <= rms1 dim (start_res Rminus (conv1 dim ker) image mdl).
Proof.
  intros D M H. unfold clean1r, clean_py in H. destruct mdl as [m0|]; cbn [start_res];
  (destruct (clean_1d_r _ _ _ _ _ _ _ _ _ _ _) as [[[rv m'] r']|] eqn:E in H; [|discriminate]); injection H as <- <- T _ _;
  apply inst_1d_r in E; auto; destruct E as (_ & _ & E & E2 & _); apply E; right;
  (destruct (Z.ltb_spec rv 0); [discriminate|]); (destruct (Z.ltb_spec rv maxiter); [discriminate|]); lia.
Qed.
Theorem C39_maxiter_2d_complex d1 d2 ker gain tol maxiter stop pos fuel image mdl area m r it ok : (0 < d1)%nat -> (0 < d2)%nat -> (0 <= maxiter)%Z ->
  clean2c d1 d2 ker gain tol maxiter stop pos fuel image mdl area = Some (m, r, TMaxiter, it, ok) ->
  crms2 d1 d2 r <= crms2 d1 d2 (start_res csub (cconv2 d1 d2 ker) image mdl).
Proof.
  intros D1 D2 M H. unfold clean2c, clean_py in H. destruct mdl as [m0|]; cbn [start_res];
  (destruct (clean_2d_c _ _ _ _ _ _ _ _ _ _ _ _) as [[[rv m'] r']|] eqn:E in H; [|discriminate]); injection H as <- <- T _ _;
  apply inst_2d_c in E; auto; destruct E as (_ & _ & E & E2 & _); apply E; right;
  (destruct (Z.ltb_spec rv 0); [discriminate|]); (destruct (Z.ltb_spec rv maxiter); [discriminate|]); lia.
Qed.
(* 'divergence' is reported only when stop_if_div was asked for *)
Theorem C39_divergence_reported dim ker gain tol maxiter stop pos fuel image mdl area m r it ok : (0 < dim)%nat -> (0 <= maxiter)%Z ->
  clean1r dim ker gain tol maxiter stop pos fuel image mdl area = Some (m, r, TDivergence, it, ok) -> stop = true /\ ok = false /\ (1 <= it < maxiter)%Z.
Proof.
  intros D M H. unfold clean1r, clean_py in H. destruct mdl as [m0|];
  (destruct (clean_1d_r _ _ _ _ _ _ _ _ _ _ _) as [[[rv m'] r']|] eqn:E in H; [|discriminate]); injection H as _ _ T <- <-;
  apply inst_1d_r in E; auto; destruct E as (_ & _ & _ & E2 & E3);
  (destruct (Z.ltb_spec rv 0) as [L|L]; [|destruct (Z.ltb_spec rv maxiter); discriminate]);
  (split; [destruct (E3 L); auto; lia|]); (split; [destruct (Z.ltb_spec 0 rv); auto; lia | lia]).
Qed.
(* why the call ended: 'divergence' when one more component would have raised the rms of the
   residual (it was not kept), 'tol' when the last component lowered it by less than the
   tolerance, relative to the rms at the start *)
Theorem C39_term_1d_real dim ker gain tol maxiter stop pos fuel image mdl area m r t it ok : (0 < dim)%nat -> (0 <= maxiter)%Z ->
  clean1r dim ker gain tol maxiter stop pos fuel image mdl area = Some (m, r, t, it, ok) ->
  let r00 := start_res Rminus (conv1 dim ker) image mdl in
  match t with
  | TDivergence => stop = true /\ ok = false /\ (1 <= it < maxiter)%Z /\ exists a x, inside1 dim a /\ 0 < rms1 dim r /\ rms1 dim r < rms1 dim (taken1 dim ker r a x)
  | TTol => ok = true /\ (1 <= it < maxiter)%Z /\ exists a x r0, inside1 dim a /\ (forall c, inside1 dim c -> r c = taken1 dim ker r0 a x c) /\
              0 < rms1 dim r0 /\ rms1 dim r <= rms1 dim r0 /\ (rms1 dim r0 - rms1 dim r) / rms1 dim r00 < tol
  | TMaxiter => ok = false /\ it = maxiter
  end.
Proof.
  intros D M H r00. unfold clean1r, clean_py in H.
  assert (X : exists ar m0 rv, clean_1d_r dim ker ar gain tol maxiter stop pos fuel m0 r00 = Some (rv, m, r) /\
    t = (if (rv <? 0)%Z then TDivergence else if (rv <? maxiter)%Z then TTol else TMaxiter) /\ it = Z.abs rv /\ ok = ((0 <? rv) && (rv <? maxiter))%Z).
  { unfold r00. destruct mdl as [m0|]; cbn [start_res];
    (destruct (clean_1d_r _ _ _ _ _ _ _ _ _ _ _) as [[[rv m'] r']|] eqn:E in H; [|discriminate]); injection H as <- <- <- <- <-; eexists _, _, rv; (split; [exact E | auto]). }
  clear H. destruct X as (ar & m0 & rv & E & -> & -> & ->).
  assert (OK := inst_1d_r _ _ _ _ _ _ _ _ _ _ _ _  D E). destruct OK as (_ & _ & _ & OK & _).
  assert (L : last_step (cells1 dim) (diff1 dim) Rminus Rmult (fun v => v * v) (fun a b => a - b) ker tol maxiter stop r00 (rv, m, r)).
  { unfold clean_1d_r in E. eapply (clean_last Nat.eqb (cells1 dim) (wrap1 dim) (diff1 dim) 0%nat 0 1 Rplus Rminus Rmult Ropp Rmult (fun v => v * v));
    [.. | exact E]; side1; sider. }
  cbn [last_step] in L. unfold first0 in L. destruct L as [(L & ST & a & x & A & L1 & L2)|[(L & a & x & r0 & A & L0 & L1 & L2 & L3)|L]].
  - destruct (Z.ltb_spec rv 0); [|lia]. split; auto. split; [destruct (Z.ltb_spec 0 rv); auto; lia|]. split; [lia|]. exists a, x. split; [exact (proj1 (in_cells1 _ _) A)|].
    rewrite grms_1r in L1. do 2 rewrite grms_1r in L2. split; [exact L1 | exact L2].
  - destruct (Z.ltb_spec rv 0); [lia|]. destruct (Z.ltb_spec rv maxiter); [|lia]. destruct (Z.ltb_spec 0 rv); [|lia]. split; auto. split; [lia|].
    exists a, x, r0. split; [exact (proj1 (in_cells1 _ _) A)|]. rewrite grms_1r in L1. do 2 rewrite grms_1r in L2. do 3 rewrite grms_1r in L3. cbv beta in L3. split; [|split; [exact L1 | split; [exact L2 | exact L3]]]. intros c C0. apply L0. apply in_cells1. exact C0.
  - subst rv. destruct (Z.ltb_spec maxiter 0); [lia|]. destruct (Z.ltb_spec maxiter maxiter); [lia|]. split; [apply andb_false_r | lia].
Qed.
Theorem C39_term_2d_real d1 d2 ker gain tol maxiter stop pos fuel image mdl area m r t it ok : (0 < d1)%nat -> (0 < d2)%nat -> (0 <= maxiter)%Z ->
  clean2r d1 d2 ker gain tol maxiter stop pos fuel image mdl area = Some (m, r, t, it, ok) ->
  let r00 := start_res Rminus (conv2 d1 d2 ker) image mdl in
  match t with
  | TDivergence => stop = true /\ ok = false /\ (1 <= it < maxiter)%Z /\ exists a x, inside2 d1 d2 a /\ 0 < rms2 d1 d2 r /\ rms2 d1 d2 r < rms2 d1 d2 (taken2 d1 d2 ker r a x)
  | TTol => ok = true /\ (1 <= it < maxiter)%Z /\ exists a x r0, inside2 d1 d2 a /\ (forall c, inside2 d1 d2 c -> r c = taken2 d1 d2 ker r0 a x c) /\
              0 < rms2 d1 d2 r0 /\ rms2 d1 d2 r <= rms2 d1 d2 r0 /\ Rabs (rms2 d1 d2 r0 - rms2 d1 d2 r) / rms2 d1 d2 r00 < tol
  | TMaxiter => ok = false /\ it = maxiter
  end.
Proof.
  intros D1 D2 M H r00. unfold clean2r, clean_py in H.
  assert (X : exists ar m0 rv, clean_2d_r d1 d2 ker ar gain tol maxiter stop pos fuel m0 r00 = Some (rv, m, r) /\
    t = (if (rv <? 0)%Z then TDivergence else if (rv <? maxiter)%Z then TTol else TMaxiter) /\ it = Z.abs rv /\ ok = ((0 <? rv) && (rv <? maxiter))%Z).
  { unfold r00. destruct mdl as [m0|]; cbn [start_res];
    (destruct (clean_2d_r _ _ _ _ _ _ _ _ _ _ _ _) as [[[rv m'] r']|] eqn:E in H; [|discriminate]); injection H as <- <- <- <- <-; eexists _, _, rv; (split; [exact E | auto]). }
  clear H. destruct X as (ar & m0 & rv & E & -> & -> & ->).
  assert (OK := inst_2d_r _ _ _ _ _ _ _ _ _ _ _ _ _ D1 D2 E). destruct OK as (_ & _ & _ & OK & _).
  assert (L : last_step (cells2 d1 d2) (diff2 d1 d2) Rminus Rmult (fun v => v * v) (fun a b => Rabs (a - b)) ker tol maxiter stop r00 (rv, m, r)).
  { unfold clean_2d_r in E. eapply (clean_last eqb2 (cells2 d1 d2) (wrap2 d1 d2) (diff2 d1 d2) (0, 0)%nat 0 1 Rplus Rminus Rmult Ropp Rmult (fun v => v * v));
    [.. | exact E]; side2; sider. }
  cbn [last_step] in L. unfold first0 in L. destruct L as [(L & ST & a & x & A & L1 & L2)|[(L & a & x & r0 & A & L0 & L1 & L2 & L3)|L]].
  - destruct (Z.ltb_spec rv 0); [|lia]. split; auto. split; [destruct (Z.ltb_spec 0 rv); auto; lia|]. split; [lia|]. exists a, x. split; [exact (proj1 (in_cells2 _ _ _) A)|].
    rewrite grms_2r in L1. do 2 rewrite grms_2r in L2. split; [exact L1 | exact L2].
  - destruct (Z.ltb_spec rv 0); [lia|]. destruct (Z.ltb_spec rv maxiter); [|lia]. destruct (Z.ltb_spec 0 rv); [|lia]. split; auto. split; [lia|].
    exists a, x, r0. split; [exact (proj1 (in_cells2 _ _ _) A)|]. rewrite grms_2r in L1. do 2 rewrite grms_2r in L2. do 3 rewrite grms_2r in L3. cbv beta in L3. split; [|split; [exact L1 | split; [exact L2 | exact L3]]]. intros c C0. apply L0. apply in_cells2. exact C0.
  - subst rv. destruct (Z.ltb_spec maxiter 0); [lia|]. destruct (Z.ltb_spec maxiter maxiter); [lia|]. split; [apply andb_false_r | lia].
Qed.
Theorem C39_term_1d_complex dim ker gain tol maxiter stop pos fuel image mdl area m r t it ok : (0 < dim)%nat -> (0 <= maxiter)%Z ->
  clean1c dim ker gain tol maxiter stop pos fuel image mdl area = Some (m, r, t, it, ok) ->
  let r00 := start_res csub (cconv1 dim ker) image mdl in
  match t with
  | TDivergence => stop = true /\ ok = false /\ (1 <= it < maxiter)%Z /\ exists a x, inside1 dim a /\ 0 < crms1 dim r /\ crms1 dim r < crms1 dim (ctaken1 dim ker r a x)
  | TTol => ok = true /\ (1 <= it < maxiter)%Z /\ exists a x r0, inside1 dim a /\ (forall c, inside1 dim c -> r c = ctaken1 dim ker r0 a x c) /\
              0 < crms1 dim r0 /\ crms1 dim r <= crms1 dim r0 /\ (crms1 dim r0 - crms1 dim r) / crms1 dim r00 < tol
  | TMaxiter => ok = false /\ it = maxiter
  end.
Proof.
  intros D M H r00. unfold clean1c, clean_py in H.
  assert (X : exists ar m0 rv, clean_1d_c dim ker ar gain tol maxiter stop pos fuel m0 r00 = Some (rv, m, r) /\
    t = (if (rv <? 0)%Z then TDivergence else if (rv <? maxiter)%Z then TTol else TMaxiter) /\ it = Z.abs rv /\ ok = ((0 <? rv) && (rv <? maxiter))%Z).
  { unfold r00. destruct mdl as [m0|]; cbn [start_res];
    (destruct (clean_1d_c _ _ _ _ _ _ _ _ _ _ _) as [[[rv m'] r']|] eqn:E in H; [|discriminate]); injection H as <- <- <- <- <-; eexists _, _, rv; (split; [exact E | auto]). }
  clear H. destruct X as (ar & m0 & rv & E & -> & -> & ->).
  assert (OK := inst_1d_c _ _ _ _ _ _ _ _ _ _ _ _  D E). destruct OK as (_ & _ & _ & OK & _).
  assert (L : last_step (cells1 dim) (diff1 dim) csub cmul cnorm2 (fun a b => a - b) ker tol maxiter stop r00 (rv, m, r)).
  { unfold clean_1d_c in E. eapply (clean_last Nat.eqb (cells1 dim) (wrap1 dim) (diff1 dim) 0%nat (0, 0) (1, 0) cadd csub cmul copp cscale cnorm2);
    [.. | exact E]; side1; sidec. }
  cbn [last_step] in L. unfold first0 in L. destruct L as [(L & ST & a & x & A & L1 & L2)|[(L & a & x & r0 & A & L0 & L1 & L2 & L3)|L]].
  - destruct (Z.ltb_spec rv 0); [|lia]. split; auto. split; [destruct (Z.ltb_spec 0 rv); auto; lia|]. split; [lia|]. exists a, x. split; [exact (proj1 (in_cells1 _ _) A)|].
    rewrite grms_1c in L1. do 2 rewrite grms_1c in L2. split; [exact L1 | exact L2].
  - destruct (Z.ltb_spec rv 0); [lia|]. destruct (Z.ltb_spec rv maxiter); [|lia]. destruct (Z.ltb_spec 0 rv); [|lia]. split; auto. split; [lia|].
    exists a, x, r0. split; [exact (proj1 (in_cells1 _ _) A)|]. rewrite grms_1c in L1. do 2 rewrite grms_1c in L2. do 3 rewrite grms_1c in L3. cbv beta in L3. split; [|split; [exact L1 | split; [exact L2 | exact L3]]]. intros c C0. apply L0. apply in_cells1. exact C0.
  - subst rv. destruct (Z.ltb_spec maxiter 0); [lia|]. destruct (Z.ltb_spec maxiter maxiter); [lia|]. split; [apply andb_false_r | lia].
Qed.
Theorem C39_term_2d_complex d1 d2 ker gain tol maxiter stop pos fuel image mdl area m r t it ok : (0 < d1)%nat -> (0 < d2)%nat -> (0 <= maxiter)%Z ->
  clean2c d1 d2 ker gain tol maxiter stop pos fuel image mdl area = Some (m, r, t, it, ok) ->
  let r00 := start_res csub (cconv2 d1 d2 ker) image mdl in
  match t with
  | TDivergence => stop = true /\ ok = false /\ (1 <= it < maxiter)%Z /\ exists a x, inside2 d1 d2 a /\ 0 < crms2 d1 d2 r /\ crms2 d1 d2 r < crms2 d1 d2 (ctaken2 d1 d2 ker r a x)
  | TTol => ok = true /\ (1 <= it < maxiter)%Z /\ exists a x r0, inside2 d1 d2 a /\ (forall c, inside2 d1 d2 c -> r c = ctaken2 d1 d2 ker r0 a x c) /\
              0 < crms2 d1 d2 r0 /\ crms2 d1 d2 r <= crms2 d1 d2 r0 /\ (crms2 d1 d2 r0 - crms2 d1 d2 r) / crms2 d1 d2 r00 < tol
  | TMaxiter => ok = false /\ it = maxiter
  end.
Proof.
  intros D1 D2 M H r00. unfold clean2c, clean_py in H.
  assert (X : exists ar m0 rv, clean_2d_c d1 d2 ker ar gain tol maxiter stop pos fuel m0 r00 = Some (rv, m, r) /\
    t = (if (rv <? 0)%Z then TDivergence else if (rv <? maxiter)%Z then TTol else TMaxiter) /\ it = Z.abs rv /\ ok = ((0 <? rv) && (rv <? maxiter))%Z).
  { unfold r00. destruct mdl as [m0|]; cbn [start_res];
    (destruct (clean_2d_c _ _ _ _ _ _ _ _ _ _ _ _) as [[[rv m'] r']|] eqn:E in H; [|discriminate]); injection H as <- <- <- <- <-; eexists _, _, rv; (split; [exact E | auto]). }
  clear H. destruct X as (ar & m0 & rv & E & -> & -> & ->).
  assert (OK := inst_2d_c _ _ _ _ _ _ _ _ _ _ _ _ _ D1 D2 E). destruct OK as (_ & _ & _ & OK & _).
  assert (L : last_step (cells2 d1 d2) (diff2 d1 d2) csub cmul cnorm2 (fun a b => a - b) ker tol maxiter stop r00 (rv, m, r)).
  { unfold clean_2d_c in E. eapply (clean_last eqb2 (cells2 d1 d2) (wrap2 d1 d2) (diff2 d1 d2) (0, 0)%nat (0, 0) (1, 0) cadd csub cmul copp cscale cnorm2);
    [.. | exact E]; side2; sidec. }
  cbn [last_step] in L. unfold first0 in L. destruct L as [(L & ST & a & x & A & L1 & L2)|[(L & a & x & r0 & A & L0 & L1 & L2 & L3)|L]].
  - destruct (Z.ltb_spec rv 0); [|lia]. split; auto. split; [destruct (Z.ltb_spec 0 rv); auto; lia|]. split; [lia|]. exists a, x. split; [exact (proj1 (in_cells2 _ _ _) A)|].
    rewrite grms_2c in L1. do 2 rewrite grms_2c in L2. split; [exact L1 | exact L2].
  - destruct (Z.ltb_spec rv 0); [lia|]. destruct (Z.ltb_spec rv maxiter); [|lia]. destruct (Z.ltb_spec 0 rv); [|lia]. split; auto. split; [lia|].
    exists a, x, r0. split; [exact (proj1 (in_cells2 _ _ _) A)|]. rewrite grms_2c in L1. do 2 rewrite grms_2c in L2. do 3 rewrite grms_2c in L3. cbv beta in L3. split; [|split; [exact L1 | split; [exact L2 | exact L3]]]. intros c C0. apply L0. apply in_cells2. exact C0.
  - subst rv. destruct (Z.ltb_spec maxiter 0); [lia|]. destruct (Z.ltb_spec maxiter maxiter); [lia|]. split; [apply andb_false_r | lia].
Qed.
(* ---- findings ---- *)
(* without stop_if_div an all-zero image is never finished, whatever maxiter >= 2 *)
Theorem C39_zero_image_hangs_refuted dim ker gain tol maxiter pos fuel : (0 < dim)%nat -> (2 <= maxiter)%Z ->
  clean1r dim ker gain tol maxiter false pos fuel (fun _ => 0) None None = None.
Proof. intros D M. unfold clean1r, clean_py. rewrite hang_1d_r; auto. Qed.
(* a mask entry that is a multiple of 2^32 counts as zero *)
Theorem C38_mask_high_word_refuted : exists area : nat -> Z, (forall c, area c <> 0%Z) /\ forall c, in_area area c = false.
Proof. exists (fun _ => 4294967296%Z). split; [intros; lia | reflexivity]. Qed.
(* ---- concrete runs ---- *)
Ltac decide_R := match goal with |- context [Rltb ?a ?b] =>
  let H := fresh in first [ assert (H : Rltb a b = true) by (apply Rltb_true; lra) | assert (H : Rltb a b = false) by (apply Rltb_false; lra)];
  rewrite H; clear H; cbn [andb orb negb] end.
Definition w_turn gain tol (maxiter : Z) stop ker := turn Nat.eqb (cells1 2) (wrap1 2) Rplus Rminus Rmult Rmult (fun v : R => v * v) (fun v => Rltb 0 v)
    (fun a b => a - b) ker (fun _ => 1%Z) gain tol stop false 1 (I:=nat).
Definition w_at (s : state (I:=nat) (V:=R)) i score best first max arg m0 m1 r0 r1 : Prop :=
  s_i s = i /\ s_score s = score /\ s_best s = best /\ s_first s = first /\ s_max s = max /\ s_arg s = arg /\
  s_mdl s 0%nat = m0 /\ s_mdl s 1%nat = m1 /\ s_res s 0%nat = r0 /\ s_res s 1%nat = r1.
Lemma w_pass arg step ker res max : 
  fold_left (pass1 Nat.eqb (wrap1 2) Rminus Rmult (fun v : R => v * v) (fun v => Rltb 0 v) ker (fun _ => 1%Z) false arg step) (cells1 2) (Pass res 0 (-1) max arg) =
  let a := ((0 + arg) mod 2)%nat in let b := ((1 + arg) mod 2)%nat in
  let va := res a - ker 0%nat * step in let res1 := setf Nat.eqb res a va in
  let vb := res1 b - ker 1%nat * step in let res2 := setf Nat.eqb res1 b vb in
  if Rltb (va * va) (vb * vb) then Pass res2 (0 + va * va + vb * vb) (vb * vb) vb b else Pass res2 (0 + va * va + vb * vb) (va * va) va a.
Proof.
  unfold cells1. cbn [seq fold_left]. unfold pass1 at 2. unfold wrap1 at 1 2 3 4. cbn [p_res p_mmax p_nscore p_max p_narg]. 
  match goal with |- context [Rltb (-1) (?x * ?x)] => replace (Rltb (-1) (x * x)) with true by (symmetry; apply Rltb_true; pose proof (Rle_0_sqr x) as S; unfold Rsqr in S; lra) end.
  cbn [andb negb orb].
  change (in_area (fun _ : nat => 1%Z) ((0 + arg) mod 2)%nat) with true. cbn [andb]. unfold pass1, wrap1. cbn [p_res p_mmax p_nscore p_max p_narg negb orb].
  change (in_area (fun _ : nat => 1%Z) ((1 + arg) mod 2)%nat) with true. rewrite !andb_true_r. reflexivity.
Qed.
Lemma sqrt_is a b : 0 <= b -> a = b * b -> sqrt a = b.
Proof. intros B ->. apply sqrt_square. auto. Qed.
Lemma sqrt2_bounds : 1 < sqrt 2 < 2.
Proof. split; [rewrite <- sqrt_1 at 1; apply sqrt_lt_1; lra | rewrite <- (sqrt_square 2) at 2 by lra; apply sqrt_lt_1; lra]. Qed.

(* kernel (1, 1), gain 1, no stop_if_div: image (1, -1) *)
Lemma w1 tol s : 0 < tol -> w_at s 0 (-1) (-1) (-1) 0 0 0 0 1 (-1) -> exists s', w_turn 1 tol 10 false (fun _ => 1) s = inl s' /\ w_at s' 1 1 (-1) 1 1 0 0 0 1 (-1).
Proof.
  intros T (A1 & A2 & A3 & A4 & A5 & A6 & A7 & A8 & A9 & A10). unfold w_turn, turn. rewrite A1, A2, A3, A4, A5, A6. rewrite w_pass. cbv zeta. cbn [Nat.add].
  change (0 mod 2)%nat with 0%nat. change (1 mod 2)%nat with 1%nat. unfold setf. cbn [Nat.eqb]. rewrite A7, A9, A10.
  repeat decide_R. cbn [p_res p_mmax p_nscore p_max p_narg]. change (INR (length (cells1 2))) with (1 + 1).
  rewrite (sqrt_is _ 1) by (try lra; field). repeat decide_R. eexists. split; [reflexivity|].
  unfold w_at. cbn [s_i s_score s_best s_first s_max s_arg s_mdl s_res Nat.eqb]. repeat split; try lra; auto.
Qed.
Lemma w2 tol s : 0 < tol -> w_at s 1 1 (-1) 1 1 0 0 0 1 (-1) -> exists s', w_turn 1 tol 10 false (fun _ => 1) s = inl s' /\ w_at s' 1 (sqrt 2) 1 1 (-2) 1 1 0 0 (-2).
Proof.
  intros T (A1 & A2 & A3 & A4 & A5 & A6 & A7 & A8 & A9 & A10). unfold w_turn, turn. rewrite A1, A2, A3, A4, A5, A6. rewrite w_pass. cbv zeta. cbn [Nat.add].
  change (0 mod 2)%nat with 0%nat. change (1 mod 2)%nat with 1%nat. unfold setf. cbn [Nat.eqb]. rewrite A7, A9, A10.
  repeat decide_R. cbn [p_res p_mmax p_nscore p_max p_narg]. change (INR (length (cells1 2))) with (1 + 1).
  match goal with |- context [sqrt (?x / (1 + 1))] => replace (x / (1 + 1)) with 2 by lra end. pose proof sqrt2_bounds. repeat decide_R. eexists. split; [reflexivity|].
  unfold w_at. cbn [s_i s_score s_best s_first s_max s_arg s_mdl s_res Nat.eqb]. repeat split; try lra; auto.
Qed.
Lemma w3 tol s : 0 < tol -> w_at s 1 (sqrt 2) 1 1 (-2) 1 1 0 0 (-2) -> exists m r, w_turn 1 tol 10 false (fun _ => 1) s = inr (1%Z, m, r) /\ r 0%nat = 2 /\ r 1%nat = 0.
Proof.
  intros T (A1 & A2 & A3 & A4 & A5 & A6 & A7 & A8 & A9 & A10). unfold w_turn, turn. rewrite A1, A2, A3, A4, A5, A6. rewrite w_pass. cbv zeta. cbn [Nat.add].
  change (1 mod 2)%nat with 1%nat. change (2 mod 2)%nat with 0%nat. unfold setf. cbn [Nat.eqb]. rewrite A8, A9, A10.
  repeat decide_R. cbn [p_res p_mmax p_nscore p_max p_narg]. change (INR (length (cells1 2))) with (1 + 1).
  match goal with |- context [sqrt (?x / (1 + 1))] => replace (x / (1 + 1)) with 2 by lra end. pose proof sqrt2_bounds. repeat decide_R.
  replace ((sqrt 2 - sqrt 2) / 1) with 0 by field. repeat decide_R. do 2 eexists. split; [reflexivity|]. cbn [Nat.eqb]. split; lra.
Qed.
Definition w_im (c : nat) : R := match c with O => 1 | _ => -1 end.
(* without stop_if_div, ending on 'tol' can return a residual worse than the one it started with *)
Theorem C39_tol_exit_refuted : exists dim ker gain maxiter image, forall tol, 0 < tol ->
  exists m r, clean1r dim ker gain tol maxiter false false 3 image None None = Some (m, r, TTol, 1%Z, true) /\ rms1 dim image < rms1 dim r.
Proof.
  exists 2%nat, (fun _ => 1), 1, 10%Z, w_im. intros tol T.
  destruct (w1 tol (start 0%nat 0 (fun _ => 0) w_im) T) as (s1 & E1 & S1). { unfold w_at, start. cbn. repeat split. }
  destruct (w2 tol s1 T S1) as (s2 & E2 & S2). destruct (w3 tol s2 T S2) as (m & r & E3 & R0 & R1).
  exists m, r. split.
  - unfold clean1r, clean_py, clean_1d_r, clean_loop. replace (kernel_gain _ _ _ _ _ _) with 1.
    2: { cbv -[Rltb Rplus Rmult Rminus Rdiv Ropp Rinv IZR]. repeat decide_R. lra. }
    cbn [loop]. change ((s_i (start 0%nat 0%R (fun _ => 0%R) w_im) <? 10)%Z) with true. cbn [andb].
    unfold w_turn in E1, E2, E3. cbv iota. rewrite E1. replace (s_i s1) with 1%Z by (symmetry; apply S1). change (1 <? 10)%Z with true. cbv iota.
    rewrite E2. replace (s_i s2) with 1%Z by (symmetry; apply S2). change (1 <? 10)%Z with true. cbv iota. rewrite E3. reflexivity.
  - unfold rms1. apply sqrt_lt_1; cbn; rewrite ?R0, ?R1; lra.
Qed.

(* kernel (1, 0), gain 1/2, stop_if_div: image (4, 0); three turns, two components *)
Definition e_ker (c : nat) : R := match c with O => 1 | _ => 0 end.
Definition e_im (c : nat) : R := match c with O => 4 | _ => 0 end.
Lemma e1 s : w_at s 0 (-1) (-1) (-1) 0 0 0 0 4 0 -> exists s', w_turn (1 / 2) 0 3 true e_ker s = inl s' /\ w_at s' 1 (sqrt 8) (-1) (sqrt 8) 4 0 0 0 4 0.
Proof.
  intros (A1 & A2 & A3 & A4 & A5 & A6 & A7 & A8 & A9 & A10). unfold w_turn, turn. rewrite A1, A2, A3, A4, A5, A6. rewrite w_pass. cbv zeta. cbn [Nat.add].
  change (0 mod 2)%nat with 0%nat. change (1 mod 2)%nat with 1%nat. unfold setf. cbn [Nat.eqb]. rewrite A7, A9, A10.
  repeat decide_R. cbn [p_res p_mmax p_nscore p_max p_narg e_ker]. change (INR (length (cells1 2))) with (1 + 1).
  repeat decide_R. cbn [p_res p_mmax p_nscore p_max p_narg].
  match goal with |- context [sqrt (?x / (1 + 1))] => replace (x / (1 + 1)) with 8 by lra end. eexists. split; [reflexivity|].
  unfold w_at. cbn [s_i s_score s_best s_first s_max s_arg s_mdl s_res Nat.eqb]. repeat split; try lra; auto.
Qed.
Lemma sqrt8_2 : sqrt 8 = 2 * sqrt 2.
Proof. replace 8 with (2 * 2 * 2) by lra. rewrite sqrt_mult by lra. rewrite sqrt_square by lra. auto. Qed.
Lemma e2 s : w_at s 1 (sqrt 8) (-1) (sqrt 8) 4 0 0 0 4 0 -> exists s', w_turn (1 / 2) 0 3 true e_ker s = inl s' /\ w_at s' 2 (sqrt 2) (-1) (sqrt 8) 2 0 2 0 2 0.
Proof.
  pose proof sqrt2_bounds as B2. pose proof sqrt8_2 as B8.
  intros (A1 & A2 & A3 & A4 & A5 & A6 & A7 & A8 & A9 & A10). unfold w_turn, turn. rewrite A1, A2, A3, A4, A5, A6. rewrite w_pass. cbv zeta. cbn [Nat.add].
  change (0 mod 2)%nat with 0%nat. change (1 mod 2)%nat with 1%nat. unfold setf. cbn [Nat.eqb]. rewrite A7, A9, A10. cbn [e_ker].
  repeat decide_R. cbn [p_res p_mmax p_nscore p_max p_narg]. change (INR (length (cells1 2))) with (1 + 1).
  match goal with |- context [sqrt (?x / (1 + 1))] => replace (x / (1 + 1)) with 2 by lra end. repeat decide_R.
  assert (D : 0 < (sqrt 8 - sqrt 2) / sqrt 8). { apply Rdiv_lt_0_compat; lra. } repeat decide_R. eexists. split; [reflexivity|].
  unfold w_at. cbn [s_i s_score s_best s_first s_max s_arg s_mdl s_res Nat.eqb]. repeat split; try lra; auto.
Qed.
Lemma e3 s : w_at s 2 (sqrt 2) (-1) (sqrt 8) 2 0 2 0 2 0 -> exists s', w_turn (1 / 2) 0 3 true e_ker s = inl s' /\ w_at s' 3 (sqrt (1 / 2)) (-1) (sqrt 8) 1 0 3 0 1 0.
Proof.
  pose proof sqrt2_bounds as B2. pose proof sqrt8_2 as B8. assert (BH : 0 < sqrt (1 / 2) < 1). { split; [apply sqrt_lt_R0; lra|]. apply Rlt_le_trans with (sqrt 1); [apply sqrt_lt_1; lra | rewrite sqrt_1; lra]. }
  intros (A1 & A2 & A3 & A4 & A5 & A6 & A7 & A8 & A9 & A10). unfold w_turn, turn. rewrite A1, A2, A3, A4, A5, A6. rewrite w_pass. cbv zeta. cbn [Nat.add].
  change (0 mod 2)%nat with 0%nat. change (1 mod 2)%nat with 1%nat. unfold setf. cbn [Nat.eqb]. rewrite A7, A9, A10. cbn [e_ker].
  repeat decide_R. cbn [p_res p_mmax p_nscore p_max p_narg]. change (INR (length (cells1 2))) with (1 + 1).
  match goal with |- context [sqrt (?x / (1 + 1))] => replace (x / (1 + 1)) with (1 / 2) by lra end. repeat decide_R.
  assert (D : 0 < (sqrt 2 - sqrt (1 / 2)) / sqrt 8). { apply Rdiv_lt_0_compat; lra. } repeat decide_R. eexists. split; [reflexivity|].
  unfold w_at. cbn [s_i s_score s_best s_first s_max s_arg s_mdl s_res Nat.eqb]. repeat split; try lra; auto.
Qed.
Example C37_C38_run : exists m r, clean1r 2 e_ker (1 / 2) 0 3 true false 4 e_im None (Some (fun _ => 1%Z)) = Some (m, r, TMaxiter, 3%Z, false) /\
  clean_1d_r 2 e_ker (fun _ => 1%Z) (1 / 2) 0 (2 + 1) true false 4 (fun _ => 0) e_im = Some (2 + 1, m, r)%Z /\
  m 0%nat = 3 /\ m 1%nat = 0 /\ r 0%nat = 1 /\ r 1%nat = 0.
Proof.
  destruct (e1 (start 0%nat 0 (fun _ => 0) e_im)) as (s1 & E1 & S1). { unfold w_at, start. cbn. repeat split. }
  destruct (e2 s1 S1) as (s2 & E2 & S2). destruct (e3 s2 S2) as (s3 & E3 & S3).
  assert (H : clean_1d_r 2 e_ker (fun _ => 1%Z) (1 / 2) 0 (2 + 1) true false 4 (fun _ => 0) e_im = Some (2 + 1, s_mdl s3, s_res s3)%Z).
  { unfold clean_1d_r, clean_loop. replace (kernel_gain _ _ _ _ _ _) with 1.
    2: { cbv -[Rltb Rplus Rmult Rminus Rdiv Ropp Rinv IZR]. repeat decide_R. lra. }
    cbn [loop]. change ((s_i (start 0%nat 0%R (fun _ => 0%R) e_im) <? 2 + 1)%Z) with true.
    unfold w_turn in E1, E2, E3. cbv iota. rewrite E1. replace (s_i s1) with 1%Z by (symmetry; apply S1). change (1 <? 2 + 1)%Z with true. cbv iota.
    rewrite E2. replace (s_i s2) with 2%Z by (symmetry; apply S2). change (2 <? 2 + 1)%Z with true. cbv iota. rewrite E3.
    replace (s_i s3) with 3%Z by (symmetry; apply S3). change (3 <? 2 + 1)%Z with false. cbv iota. unfold finish.
    replace (s_best s3) with (-1) by (symmetry; apply S3). replace (Rltb 0 (-1)) with false by (symmetry; apply Rltb_false; lra). reflexivity. }
  exists (s_mdl s3), (s_res s3). split; [|split; [exact H|repeat split; apply S3]].
  unfold clean1r, clean_py. change 3%Z with (2 + 1)%Z at 1. rewrite H. reflexivity.
Qed.
Example C38_hypotheses_met : plain_mask (fun _ : nat => 1%Z) /\ (exists n, inside1 2 n /\ (1 <> 0)%Z /\ e_ker n <> 0) /\ (inside1 2 0 /\ 0 < e_ker 0%nat /\ forall n, inside1 2 n -> - e_ker n < e_ker 0%nat).
Proof.
  split; [intros c; lia|]. split; [exists 0%nat; unfold inside1; cbn; repeat split; try lia; lra|].
  unfold inside1. split; [lia|]. split; [cbn; lra|]. intros [|[|n]] H; cbn; try lra. 
Qed.
Print Assumptions C37_conserved_1d_real. Print Assumptions C37_conserved_2d_real. Print Assumptions C37_conserved_1d_complex. Print Assumptions C37_conserved_2d_complex.
Print Assumptions C38_mask_1d_real. Print Assumptions C38_mask_2d_real. Print Assumptions C38_mask_1d_complex. Print Assumptions C38_mask_2d_complex.
Print Assumptions C38_component_1d_real. Print Assumptions C38_component_2d_real. Print Assumptions C38_component_1d_complex. Print Assumptions C38_component_2d_complex.
Print Assumptions C38_pos_def_1d. Print Assumptions C38_pos_def_2d. Print Assumptions C38_mask_high_word_refuted.
Print Assumptions C39_stop_1d_real. Print Assumptions C39_stop_2d_real. Print Assumptions C39_stop_1d_complex. Print Assumptions C39_stop_2d_complex.
Print Assumptions C39_maxiter_1d_real. Print Assumptions C39_maxiter_2d_complex. Print Assumptions C39_divergence_reported.
Print Assumptions C39_zero_image_hangs_refuted. Print Assumptions C39_tol_exit_refuted.
Print Assumptions C39_term_1d_real. Print Assumptions C39_term_2d_real. Print Assumptions C39_term_1d_complex. Print Assumptions C39_term_2d_complex.
