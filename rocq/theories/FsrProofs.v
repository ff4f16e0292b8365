From Coq Require Import Reals Lra.
From Verif Require Import Base BaselineModel CleanModel CleanSpec CleanProofs CleanProofs2 CleanProps CmdModel GridModel GridSpec GridProofs GridProofs2 ImgModel ImgSpec ImgProofs ImgProofs2 GeoModel SkyModel SkySpec SkyProofs FsrModel FsrSpec.
Ltac Zify.zify_post_hook ::= idtac.
Open Scope R_scope.
Local Notation length := List.length.
Add Ring Cring2 : c_ring.

(* ---------- lists ---------- *)
Lemma nth_seq_map {A} (d : A) (f : nat -> A) n k : (k < n)%nat -> nth k (map f (seq 0 n)) d = f k.
Proof. intros H. rewrite (nth_indep _ d (f 0%nat)) by (rewrite map_length, seq_length; exact H). rewrite map_nth, seq_nth by exact H. reflexivity. Qed.
Lemma nth_list_eq {A} (d : A) l m : length l = length m -> (forall k, (k < length l)%nat -> nth k l d = nth k m d) -> l = m.
Proof. intros L H. apply (nth_ext l m d d); assumption. Qed.
Lemma combine_nth_map {A B D} (f : A * B -> D) (a : A) (b : B) (d : D) l m k : length l = length m -> (k < length l)%nat ->
  nth k (map f (combine l m)) d = f (nth k l a, nth k m b).
Proof.
  intros L H. rewrite (nth_indep _ d (f (a, b))) by (rewrite map_length, combine_length; lia). rewrite map_nth, combine_nth by exact L. reflexivity.
Qed.

(* ---------- transforms ---------- *)
Lemma dft_length s l : length (dft s l) = length l.
Proof. unfold dft. rewrite map_length, seq_length. reflexivity. Qed.
Lemma fft_length l : length (fft l) = length l.
Proof. apply dft_length. Qed.
Lemma ifft_length l : length (ifft l) = length l.
Proof. unfold ifft. rewrite map_length. apply dft_length. Qed.
Lemma dft_nth s l k : (k < length l)%nat -> nth k (dft s l) (0, 0) = csum (seq 0 (length l)) (fun x => cmul (nth x l (0, 0)) (cis (s * INR (x * k) / INR (length l)))).
Proof. intros H. unfold dft. rewrite nth_seq_map by exact H. apply fold_csum. Qed.
Lemma fft_nth l k : (k < length l)%nat -> nth k (fft l) (0, 0) = csum (seq 0 (length l)) (fun x => cmul (nth x l (0, 0)) (cis (- (INR (x * k) / INR (length l))))).
Proof. intros H. unfold fft. rewrite dft_nth by exact H. apply csum_ext. intros x _. f_equal. f_equal. unfold Rdiv. ring. Qed.
Lemma ifft_nth l k : (k < length l)%nat -> nth k (ifft l) (0, 0) = cscale (/ INR (length l)) (csum (seq 0 (length l)) (fun x => cmul (nth x l (0, 0)) (cis (INR (x * k) / INR (length l))))).
Proof.
  intros H. unfold ifft. rewrite (nth_indep _ (0, 0) (cscale (/ INR (length l)) (0, 0))) by (rewrite map_length, dft_length; exact H).
  rewrite map_nth, dft_nth by exact H. f_equal. apply csum_ext. intros x _. f_equal. f_equal. rewrite Rmult_1_l. reflexivity.
Qed.
Lemma csum_ring n f : csum (ring (Z.of_nat n)) f = csum (seq 0 n) (fun a => f (Z.of_nat a)).
Proof. unfold ring. rewrite Nat2Z.id, csum_map. reflexivity. Qed.
(* the turns of all cells against each other *)
Lemma orthogonal n a b : (0 < n)%nat -> (a < n)%nat -> (b < n)%nat ->
  csum (seq 0 n) (fun x => cmul (cis (INR (x * a) / INR n)) (cis (- (INR (x * b) / INR n)))) = if Nat.eqb a b then (INR n, 0) else (0, 0).
Proof.
  intros N A B. pose proof (roots (Z.of_nat n) (Z.of_nat a - Z.of_nat b) ltac:(lia)) as R0. rewrite csum_ring in R0.
  rewrite (csum_ext _ _ (fun x => cis (IZR (Z.of_nat x * (Z.of_nat a - Z.of_nat b)) / IZR (Z.of_nat n)))).
  - rewrite R0. rewrite <- INR_IZR_INZ. destruct (Nat.eqb_spec a b) as [->|NE].
    + rewrite Z.sub_diag, Z.mod_0_l by lia. reflexivity.
    + destruct (Z.eqb_spec ((Z.of_nat a - Z.of_nat b) mod Z.of_nat n) 0) as [E|E]; [|reflexivity]. apply Z.mod_divide in E; [|lia]. destruct E as [q E]. exfalso.
      assert (q = 0 \/ 1 <= q \/ q <= -1)%Z as [->|[Q|Q]] by lia; nia.
  - intros x _. rewrite <- cis_add. f_equal. rewrite mult_IZR, minus_IZR, <- !INR_IZR_INZ, !mult_INR. unfold Rdiv. ring.
Qed.
Lemma ifft_fft l : (0 < length l)%nat -> ifft (fft l) = l.
Proof.
  intros N. apply (nth_list_eq (0, 0)); [rewrite ifft_length, fft_length; reflexivity|]. rewrite ifft_length, fft_length. intros k K.
  rewrite ifft_nth by (rewrite fft_length; exact K). rewrite fft_length. set (n := length l) in *.
  rewrite (csum_ext _ _ (fun x => csum (seq 0 n) (fun y => cmul (nth y l (0, 0)) (cmul (cis (INR (x * k) / INR n)) (cis (- (INR (x * y) / INR n))))))).
  - rewrite csum_swap. rewrite (csum_ext _ _ (fun y => cmul (nth y l (0, 0)) (if Nat.eqb k y then (INR n, 0) else (0, 0)))).
    + rewrite (csum_pick _ k); [|apply seq_NoDup|apply in_seq; lia|].
      * rewrite Nat.eqb_refl. destruct (nth k l (0, 0)) as [u v]. unfold cscale, cmul. cbn [fst snd]. assert (INR n <> 0) by (apply not_0_INR; lia). f_equal; field; assumption.
      * intros y _ NE. destruct (Nat.eqb_spec k y); [congruence|]. cr.
    + intros y I. apply in_seq in I. rewrite <- orthogonal by lia. apply csum_mul_l.
  - intros x I. apply in_seq in I. rewrite fft_nth by (fold n; lia). fold n. rewrite <- csum_mul_r. apply csum_ext. intros y _. rewrite (Nat.mul_comm y x). cr.
Qed.
(* the components of a spectrum *)
Lemma sum_csum {A} (l : list A) f : sum (map f l) = csum l f.
Proof. unfold sum. induction l as [|a l IH]; [reflexivity|]. cbn [map fold_right]. rewrite IH, csum_cons. reflexivity. Qed.
Lemma component_ifft l k : (k < length l)%nat -> component l k = nth k (ifft l) (0, 0).
Proof.
  intros K. rewrite ifft_nth by exact K. unfold component. rewrite sum_csum, cscale_mul. change times with cmul. change circle with cis.
  f_equal. apply csum_ext. intros x _. rewrite mult_INR. reflexivity.
Qed.
Definition vplus (a b : list (R * R)) : list (R * R) := map (fun p => cadd (fst p) (snd p)) (combine a b).

(* ---------- CLEAN ---------- *)
Lemma rsum_sub {A} (l : list A) f g : rsum l (fun a => f a - g a) = rsum l f - rsum l g.
Proof. induction l as [|a l IH]; cbn [rsum]; [ring|]. rewrite IH. ring. Qed.
Lemma rsum_plus {A} (l : list A) f g : rsum l (fun a => f a + g a) = rsum l f + rsum l g.
Proof. induction l as [|a l IH]; cbn [rsum]; [ring|]. rewrite IH. ring. Qed.
Lemma cconv_csum n k m c : cconv1 n k m c = csum (seq 0 n) (fun a => cmul (k ((c + n - a) mod n)%nat) (m a)).
Proof.
  unfold cconv1, conv1, csum, re, im. symmetry. f_equal; [rewrite <- rsum_sub|rewrite <- rsum_plus]; reflexivity.
Qed.
Lemma nth_repeat_lt {A} (d a : A) n k : (k < n)%nat -> nth k (repeat a n) d = a.
Proof. intros H. rewrite (nth_indep _ d a) by (rewrite repeat_length; exact H). apply nth_repeat. Qed.
Definition at_ (l : list (R * R)) (i : nat) : R * R := nth i l (0, 0).
Definition cleaning (tol : R) (n : nat) (ker image : nat -> R * R) m r :=
  exists t it ok, clean1c n ker (1 / 10) tol turns true false (S (Z.to_nat turns)) image None None = Some (m, r, t, it, ok).
Lemma deconv_ok tol d ker : (0 < length d)%nat -> exists m r, deconv tol d ker = Some (map m (seq 0 (length d)), map r (seq 0 (length d))) /\ cleaning tol (length d) (at_ ker) (at_ d) m r.
Proof.
  intros N. destruct (C39_stop_1d_complex (length d) (at_ ker) (1 / 10) tol turns false (S (Z.to_nat turns)) (at_ d) None None N (Nat.lt_succ_diag_r _)) as (m & r & t & it & ok & E & _).
  exists m, r. split; [|exists t, it, ok; exact E]. unfold deconv. unfold clean1c, clean_py in *. unfold at_ in E.
  destruct (clean_1d_c _ _ _ _ _ _ _ _ _ _ _) as [[[rv m'] r']|]; [|discriminate]. injection E as -> -> _ _ _. reflexivity.
Qed.
Lemma cleaning_conserved tol n ker image m r : (0 < n)%nat -> cleaning tol n ker image m r -> forall k, (k < n)%nat -> image k = cadd (r k) (cconv1 n ker m k).
Proof. intros N (t & it & ok & E) k K. eapply C37_conserved_1d_complex; eauto. Qed.

Definition root_mean (w : list R) : R := sqrt (fold_right (fun x s => x * x + s) 0 w / INR (length w)).
Lemma restored_ok tol w d : (0 < length d)%nat -> root_mean w <> 0 ->
  exists x m r, restored tol w d = Ok x /\ length x = length d /\ cleaning tol (length d) (at_ (ifft (map (fun x => (x, 0)) w))) (at_ d) m r /\
  forall k, (k < length d)%nat -> nth k x (0, 0) = cadd (m k) (cscale (/ root_mean w) (r k)).
Proof.
  intros N G. unfold restored. fold (root_mean w). destruct (Req_EM_T (root_mean w) 0) as [E|_]; [contradiction|].
  destruct (deconv_ok tol d (ifft (map (fun x => (x, 0)) w)) N) as (m & r & E & CL). rewrite E. eexists. exists m, r. split; [reflexivity|]. split; [rewrite map_length, combine_length, !map_length, seq_length; lia|].
  split; [exact CL|]. intros k K. rewrite (combine_nth_map _ (0, 0) (0, 0)) by (rewrite ?map_length, ?seq_length; auto). cbn [fst snd]. rewrite !nth_seq_map by exact K. reflexivity.
Qed.
(* without flags: the kernel is one at 0 and zero elsewhere, and nothing is lost *)
Lemma ifft_ones n k : (k < n)%nat -> nth k (ifft (map (fun x => (x, 0)) (repeat 1 n))) (0, 0) = if Nat.eqb k 0 then (1, 0) else (0, 0).
Proof.
  intros K. assert (L : length (map (fun x : R => (x, 0)) (repeat 1 n)) = n) by (rewrite map_length, repeat_length; reflexivity).
  rewrite ifft_nth by (rewrite L; exact K). rewrite L. rewrite (csum_ext _ _ (fun x => cmul (cis (INR (x * k) / INR n)) (cis (- (INR (x * 0) / INR n))))).
  - rewrite orthogonal by lia. assert (INR n <> 0) by (apply not_0_INR; lia). destruct (Nat.eqb k 0); unfold cscale; cbn [fst snd]; f_equal; field; assumption.
  - intros x I. apply in_seq in I. rewrite Nat.mul_0_r. cbn [INR]. replace (- (0 / INR n)) with 0 by (unfold Rdiv; ring). rewrite cis_0.
    pose proof (map_nth (fun x : R => (x, 0)) (repeat 1 n) 0 x) as Q. cbn beta in Q. rewrite Q, nth_repeat_lt by lia. cr.
Qed.

Lemma cleaning_delta tol n ker image m r : (0 < n)%nat -> (forall k, (k < n)%nat -> ker k = if Nat.eqb k 0 then (1, 0) else (0, 0)) -> cleaning tol n ker image m r ->
  forall k, (k < n)%nat -> image k = cadd (m k) (r k).
Proof.
  intros N D CL k K. rewrite (cleaning_conserved _ _ _ _ _ _ N CL k K). rewrite cconv_csum. rewrite (csum_pick _ k); [|apply seq_NoDup|apply in_seq; lia|].
  - replace ((k + n - k) mod n)%nat with 0%nat by (replace (k + n - k)%nat with n by lia; symmetry; apply Nat.mod_same; lia). rewrite D by lia. cbn [Nat.eqb]. cr.
  - intros a I NE. apply in_seq in I. rewrite D by (apply Nat.mod_upper_bound; lia). destruct (Nat.eqb_spec ((k + n - a) mod n) 0) as [Z0|Z0]; [|cr].
    exfalso. apply Nat.mod_divides in Z0 as [q Z0]; [|lia]. destruct q as [|[|q]]; lia || nia.
Qed.
