From Coq Require Import Reals Ascii String Lra.
From Verif Require Import Base CleanModel ParamModel ScriptModel ScriptSpec ScriptProofs CatModel SrcModel SrcSpec.
Local Open Scope R_scope.
Local Notation length := List.length.
Ltac Zify.zify_post_hook ::= idtac.

(* ---- fluxes ---- *)
Lemma ln10_pos : 0 < ln 10.
Proof. rewrite <- ln_1. apply ln_increasing; lra. Qed.
Lemma ln_div a b : 0 < a -> 0 < b -> ln (a / b) = ln a - ln b.
Proof. intros A B. unfold Rdiv. rewrite ln_mult by (auto; apply Rinv_0_lt_compat; auto). rewrite ln_Rinv by auto. lra. Qed.
Lemma div_pos a b : 0 < a -> 0 < b -> 0 < a / b.
Proof. intros. apply Rmult_lt_0_compat; auto. apply Rinv_0_lt_compat; auto. Qed.
Lemma law_shines n ra dec j i m : 0 < m -> shines (Body n ra dec (Some j) (Law i) m) (fun f => j * Rpower (f / m) i).
Proof. intros _ f _. reflexivity. Qed.
Lemma law_power j i m : 0 < m -> power_law (fun f => j * Rpower (f / m) i) j i m.
Proof.
  intros M. split.
  - unfold Rdiv. rewrite Rinv_r by lra. unfold Rpower. rewrite ln_1, Rmult_0_r, exp_0. lra.
  - intros f g F G. unfold Rpower. rewrite !ln_div by auto. rewrite Rmult_assoc, <- exp_plus. do 2 f_equal. lra.
Qed.

Lemma map_res_ok {A B} (f : A -> res B) l r : map_res f l = Ok r <-> Forall2 (fun x y => f x = Ok y) l r.
Proof.
  split.
  - revert r. induction l as [|x l IH]; intros r E; cbn [map_res] in E.
    + injection E as <-. constructor.
    + destruct (f x) eqn:Ex; [|discriminate]. cbn [bind] in E. destruct (map_res f l) eqn:El; [|discriminate]. cbn [bind] in E. injection E as <-. constructor; auto.
  - induction 1; cbn [map_res]; auto. rewrite H, IHForall2. reflexivity.
Qed.

(* ---- heap ---- *)
Lemma hset_len h i o : length (hset h i o) = length h.
Proof. revert i. induction h; intros [|i]; cbn; auto. Qed.
Lemma hset_same h i o : (i < length h)%nat -> nth_error (hset h i o) i = Some o.
Proof. revert i. induction h; intros [|i]; cbn; intros; try lia; auto. apply IHh. lia. Qed.
Lemma hset_other h i k o : i <> k -> nth_error (hset h i o) k = nth_error h k.
Proof. revert i k. induction h; intros [|i] [|k] N; cbn; auto; try lia. Qed.
(* what an update of a list of references does to the heap *)
Lemma update_refs_spec l : forall h afreqs h', update_refs h l afreqs = Ok h' ->
  length h' = length h /\
  (forall i o, nth_error h i = Some o -> ~ In i l -> nth_error h' i = Some o) /\
  (forall i o, nth_error h i = Some o -> In i l -> exists v, fluxes (o_body o) afreqs = Ok v /\
     nth_error h' i = Some (Obj (o_body o) (Some v) (match b_spec (o_body o) with Law _ => Some afreqs | Helm _ => o_afreqs o end))).
Proof.
  induction l as [|k l IH]; intros h afreqs h' E; cbn [update_refs] in E.
  - injection E as <-. repeat split; auto. intros i o _ [].
  - unfold update_one in E. destruct (nth_error h k) as [ok|] eqn:Ek; [|discriminate].
    destruct (fluxes (o_body ok) afreqs) as [v|] eqn:Ev; [|discriminate]. cbn [bind] in E.
    set (o1 := Obj (o_body ok) _ _) in E. apply IH in E as (A & B & C). rewrite hset_len in A. split; auto.
    assert (K : (k < length h)%nat) by (apply nth_error_Some; congruence). split.
    + intros i o I N. apply B; [|firstorder]. rewrite hset_other; auto. intros ->. apply N. left; auto.
    + intros i o I [->|J].
      * assert (o = ok) by congruence. subst o. exists v. split; auto.
        destruct (in_dec Nat.eq_dec i l) as [Y|Y].
        { destruct (C i o1) as (w & W1 & W2); [apply hset_same; auto|auto|]. unfold o1 in W1, W2. cbn [o_body o_afreqs] in *.
          assert (w = v) by congruence. subst w. rewrite W2. do 2 f_equal. destruct (b_spec (o_body ok)); auto. }
        { rewrite (B i o1); [|apply hset_same; auto|auto]. reflexivity. }
      * destruct (Nat.eq_dec i k) as [->|N].
        { assert (o = ok) by congruence. subst o. exists v. split; auto.
          destruct (C k o1) as (w & W1 & W2); [apply hset_same; auto|auto|]. unfold o1 in W1, W2. cbn [o_body o_afreqs] in *.
          assert (w = v) by congruence. subst w. rewrite W2. do 2 f_equal. destruct (b_spec (o_body ok)); auto. }
        { apply C; auto. rewrite hset_other; auto. }
Qed.
