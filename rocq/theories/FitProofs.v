(* Lemmas about the fits. *)
From Coq Require Import Reals Lra FunctionalExtensionality.
From Verif Require Import Base CleanModel CleanSpec FitModel FitSpec.
Ltac Zify.zify_post_hook ::= idtac.
Open Scope R_scope.

Lemma Rltb_true x y : Rltb x y = true <-> x < y.
Proof. unfold Rltb. destruct (Rlt_dec x y); split; intros; auto; discriminate. Qed.
Lemma Rltb_false x y : Rltb x y = false <-> y <= x.
Proof. unfold Rltb. destruct (Rlt_dec x y); split; intros; auto; try discriminate; lra. Qed.
Lemma clip_bounded lo up v : clip lo up v = bounded lo up v.
Proof.
  unfold clip, bounded. replace (if Rltb v lo then lo else v) with (Rmax lo v).
  - destruct up as [u|]; auto. unfold Rltb, Rmin. destruct (Rlt_dec u (Rmax lo v)), (Rle_dec u (Rmax lo v)); lra.
  - unfold Rltb, Rmax. destruct (Rlt_dec v lo), (Rle_dec lo v); lra.
Qed.
Lemma bounded_within lo up v : sensible lo up -> within lo up (bounded lo up v).
Proof.
  unfold sensible, within, bounded. destruct up as [u|]; intros H; [|split; auto; apply Rmax_l]. split; [|apply Rmin_l].
  apply Rmin_glb; auto. apply Rmax_l.
Qed.
Lemma fold_app l1 l2 : fold_right Rplus 0 (l1 ++ l2) = fold_right Rplus 0 l1 + fold_right Rplus 0 l2.
Proof. induction l1; cbn; lra. Qed.
Lemma isum_sum2 d1 d2 f : isum d1 d2 f = sum2 d1 d2 f.
Proof.
  unfold isum, sum2, pixels, cells2. generalize (seq 0 d1). induction l as [|a l IH]; cbn [list_prod map fold_right rsum]; auto.
  rewrite map_app, fold_app. change (list_prod l (seq 0 d2)) with (list_prod l (seq 0 d2)) in *. rewrite IH. f_equal.
  generalize (seq 0 d2). intros l2. clear. induction l2; cbn; congruence.
Qed.
Lemma average_mean d1 d2 f : average d1 d2 f = mean d1 d2 f.
Proof. unfold average, mean. rewrite isum_sum2. auto. Qed.
Lemma q_ker d1 d2 k : q d1 d2 k = ker_size d1 d2 k.
Proof. unfold q, ker_size. rewrite isum_sum2. auto. Qed.
Lemma mean_square_misfit d1 d2 im ker x : mean_square d1 d2 (residual d1 d2 im ker x) = misfit2 d1 d2 im ker x.
Proof. unfold mean_square. rewrite average_mean. auto. Qed.

Section S.
Variables (d1 d2 : nat) (im ker : image).
Section L.
Variables (area : nat * nat -> Z) (gain tol lower : R) (upper : option R) (x0 : image).
Notation xs := (steps d1 d2 im ker area gain lower upper x0).
Notation sc n := (misfit_in d1 d2 im ker area (xs n)).
Hypothesis K : ker_size d1 d2 ker <> 0.

Lemma turn_step x : let '(c, g) := chi2_of d1 d2 im ker area x in
  average d1 d2 c = misfit_in d1 d2 im ker area x /\
  forall p, lsq_dx c g p = IZR (area p) * misfit d1 d2 im ker x p / (2 * ker_size d1 d2 ker).
Proof.
  unfold chi2_of. split.
  - rewrite average_mean. unfold misfit_in, mean. f_equal. f_equal. apply functional_extensionality. intros p. rewrite <- Rabs_mult.
    rewrite Rabs_pos_eq by apply Rle_0_sqr. unfold residual, convolved, misfit. lra.
  - intros p. unfold lsq_dx. rewrite q_ker. change (residual d1 d2 im ker x p) with (misfit d1 d2 im ker x p).
    set (m := misfit d1 d2 im ker x p). set (a := IZR (area p)). unfold Rltb. destruct (Rlt_dec 0 (Rabs (-2 * ker_size d1 d2 ker * (m * a)))) as [H|H].
    + assert (N : m * a <> 0). { intros E. rewrite E, Rmult_0_r, Rabs_R0 in H. lra. }
      assert (m <> 0 /\ a <> 0) as [M A] by (split; intros E; apply N; rewrite E; lra).
      rewrite <- Rabs_mult, (Rabs_pos_eq (m * a * (m * a))) by apply Rle_0_sqr. field. auto.
    + assert (N : m * a = 0). { destruct (Req_dec (m * a) 0); auto. exfalso. apply H. apply Rabs_pos_lt. apply Rmult_integral_contrapositive. split; auto. lra. }
      replace (a * m) with (m * a) by lra. rewrite N. lra.
Qed.
Definition settled (prev now : R) : Prop := now <> 0 /\ Rabs (1 - prev / now) < tol.
Lemma turn_some n prev : lsq_turn d1 d2 im ker area gain tol lower upper (xs n) prev =
  if (if Req_EM_T (sc n) 0 then false else Rltb (Rabs (1 - prev / sc n)) tol) then None else Some (xs (S n), sc n).
Proof.
  unfold lsq_turn. pose proof (turn_step (xs n)) as T. destruct (chi2_of d1 d2 im ker area (xs n)) as [c g]. destruct T as [T1 T2]. rewrite T1.
  match goal with |- (if ?b then _ else _) = _ => destruct b end; auto. f_equal. f_equal. apply functional_extensionality. intros p. rewrite clip_bounded, T2. auto.
Qed.
Lemma settled_dec prev now : (if Req_EM_T now 0 then false else Rltb (Rabs (1 - prev / now)) tol) = true <-> settled prev now.
Proof.
  unfold settled. destruct (Req_EM_T now 0); [split; [discriminate|tauto]|]. rewrite Rltb_true. tauto.
Qed.
Definition before (n : nat) : R := match n with O => 0 | S n => sc n end.
Lemma loop_steps k : forall n x e s i, lsq_loop d1 d2 im ker area gain tol lower upper k n (xs n) (before n) = (x, e, s, i) ->
  exists m, (n <= m)%nat /\ x = xs m /\ s = before m /\ (forall j, (n <= j < m)%nat -> ~ settled (before j) (sc j)) /\
    ((e = EMaxiter /\ m = (n + k)%nat /\ i = m) \/ (e = ETol /\ (m < n + k)%nat /\ i = S m /\ settled (before m) (sc m))).
Proof.
  induction k as [|k IH]; intros n x e s i E; cbn [lsq_loop] in E.
  - injection E as <- <- <- <-. exists n. split; [lia|]. split; auto. split; auto. split; [intros j J; lia|]. left. split; [reflexivity|split; lia].
  - rewrite turn_some in E. match type of E with context [if ?b then None else _] => destruct b eqn:B end.
    + injection E as <- <- <- <-. apply settled_dec in B. exists n. split; [lia|]. split; auto. split; auto. split; [intros; lia|]. right. repeat split; auto; try lia; apply B.
    + change (sc n) with (before (S n)) in E. apply IH in E as (m & L & X & Y & Z & W). exists m. split; [lia|]. split; auto. split; auto. split.
      * intros j J. destruct (Nat.eq_dec j n) as [->|N]; [|apply Z; lia]. rewrite <- settled_dec, B. discriminate.
      * destruct W as [(W1 & W2 & W3)|(W1 & W2 & W3)]; [left|right]; repeat split; auto; try lia; apply W3.
Qed.
End L.

Section M.
Variables (m : image) (nvar0 gain tol lower : R) (upper : option R).
Notation next := (next_step d1 d2 im ker m nvar0).
(* bounds, outcome *)
Lemma maxent_inv k : forall i s sc b e sc' i', sensible lower upper ->
  maxent_loop d1 d2 im ker m nvar0 gain tol lower upper k i s sc = (b, e, sc', i') ->
  (i <= i' <= i + k)%nat /\ (e = EMaxiter -> i' = (i + k)%nat) /\ (e <> EMaxiter -> (i < i')%nat) /\
  (forall x, b = Some x -> (option_map fst s = Some x /\ (i' <= S i)%nat) \/ (forall p, within lower upper (x p))) /\
  (e = ETol -> exists x v, b = Some x /\ sc' = Some v /\ 0 < v < tol) /\
  (e = EDivergence -> sc' = None \/ exists v, sc' = Some v /\ (v <= 0 \/ 10000000000 < v)).
Proof.
  induction k as [|k IH]; intros i s sc b e sc' i' Sn E; cbn [maxent_loop] in E.
  - injection E as <- <- <- <-. split; [lia|]. split; [lia|]. split; [tauto|]. split; [auto|]. split; discriminate.
  - destruct s as [[b0 al]|].
    2:{ injection E as <- <- <- <-. split; [lia|]. split; [discriminate|]. split; [lia|]. split; [discriminate|]. split; [discriminate|]. auto. }
    destruct (next b0 al) as [[v|] d] eqn:N.
    2:{ injection E as <- <- <- <-. split; [lia|]. split; [discriminate|]. split; [lia|]. split; [intros x [= <-]; left; split; auto|]. split; [discriminate|]. auto. }
    destruct (Rltb v tol && Rltb 0 v) eqn:T.
    { injection E as <- <- <- <-. apply andb_true_iff in T as [T1 T2]. apply Rltb_true in T1, T2. split; [lia|]. split; [discriminate|]. split; [lia|].
      split; [intros x [= <-]; left; split; auto|]. split; [|discriminate]. intros _. exists b0, v. auto. }
    destruct (Rltb 10000000000 v || negb (Rltb 0 v)) eqn:D.
    { injection E as <- <- <- <-. split; [lia|]. split; [discriminate|]. split; [lia|]. split; [intros x [= <-]; left; split; auto|]. split; [discriminate|].
      intros _. right. exists v. split; auto. apply orb_true_iff in D as [D|D]; [right; apply Rltb_true; auto|left]. apply negb_true_iff, Rltb_false in D. auto. }
    apply IH in E as (A & B & C & F & G & H); auto. split; [lia|]. split; [intros X; rewrite (B X); lia|]. split; [intros X; specialize (C X); lia|].
    split; [|auto]. intros x X. right. destruct (F x X) as [[Y Z]|Y]; auto. destruct d as [[db da]|]; cbn [option_map fst] in Y; [|discriminate].
    injection Y as <-. intros p. rewrite clip_bounded. apply bounded_within. auto.
Qed.
End M.

Section A.
Variables (lower : R) (upper : option R) (noise : nat -> image) (cooling : nat -> image -> image).
Notation loopA := (anneal_loop d1 d2 im ker lower upper noise cooling).
Notation tryA := (try_model d1 d2 ker lower upper noise cooling).
Notation res := (residual d1 d2 im ker).
Notation ms := (misfit2 d1 d2 im ker).
(* the state after n turns *)
Fixpoint state_after (m0 : image) (n : nat) : image :=
  match n with
  | O => m0
  | S n => let m := state_after m0 n in let c := tryA n m (res m) in if Rltb (ms c) (ms m) then c else m
  end.
Lemma anneal_states m0 k : forall n, loopA k n (state_after m0 n) (res (state_after m0 n)) (ms (state_after m0 n)) =
  (state_after m0 (n + k), res (state_after m0 (n + k)), ms (state_after m0 (n + k))).
Proof.
  induction k as [|k IH]; intros n; cbn [anneal_loop]; [rewrite Nat.add_0_r; auto|].
  rewrite mean_square_misfit. replace (n + S k)%nat with (S n + k)%nat by lia. specialize (IH (S n)). revert IH. cbn [state_after].
  destruct (Rltb _ _); auto.
Qed.
End A.
End S.
