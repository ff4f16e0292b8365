From Verif Require Import Base.
From Coq Require Import String.
From Verif Require Import UvModel UvSpec UvProofs UvProofs2 UvProofs3 UvProofs4 UvProofs5 PipeModel PipeSpec.
Ltac Zify.zify_post_hook ::= idtac.
Open Scope Z_scope.
Local Notation length := List.length.

Definition pname (p : put) : string := fst (fst p).
Definition pty (p : put) : ty := snd (fst p).
Definition toput (p : put) : uop := UPut (fst (fst p)) (snd (fst p)) (snd p).

Lemma mem_In n l : mem n l = true <-> In n l.
Proof.
  unfold mem. rewrite existsb_exists. split.
  - intros (m & A & B). apply String.eqb_eq in B. congruence.
  - intros H. exists n. split; [auto|apply String.eqb_refl].
Qed.

(* ---------- assignments as environments ---------- *)
Definition eputs (e : env) (ps : list put) : env := fold_left (fun e p => env_put e (pname p) (pty p) (snd p)) ps e.
Definition sputs (set : list (string * list Z)) (ps : list put) : list (string * list Z) :=
  fold_left (fun s p => match snd p with [] => s | _ => (pname p, snd p) :: s end) ps set.

Lemma look_eput e n t b m : look (env_put e n t b) m =
  match b with [] => look e m | _ => if String.eqb n m then Some (t, b) else look e m end.
Proof. destruct b; reflexivity. Qed.

Lemma eputs_out ps n : ~ In n (map pname ps) -> forall e, look (eputs e ps) n = look e n.
Proof.
  induction ps as [|p ps IH]; intros H e; cbn; auto. unfold eputs in *. cbn [fold_left map In] in *.
  rewrite IH by tauto. rewrite look_eput. destruct (snd p); auto.
  destruct (String.eqb_spec (pname p) n); auto. tauto.
Qed.

Lemma eputs_in ps n t b : NoDup (map pname ps) -> In (n, t, b) ps -> b <> [] ->
  forall e, look (eputs e ps) n = Some (t, b).
Proof.
  induction ps as [|p ps IH]; intros ND H Hb e; [destruct H|]. unfold eputs in *. cbn [fold_left map] in *.
  inversion ND as [|? ? N1 N2]; subst. destruct H as [->|H].
  - cbn [pname pty fst snd] in *. fold (eputs (env_put e n t b) ps). rewrite eputs_out by exact N1.
    rewrite look_eput. destruct b; [congruence|]. now rewrite String.eqb_refl.
  - apply IH; auto.
Qed.

Lemma sputs_in ps : forall set n b, In (n, b) (sputs set ps) ->
  In (n, b) set \/ exists t, In (n, t, b) ps.
Proof.
  induction ps as [|[[m t] c] ps IH]; intros set n b H; [left; exact H|]. cbn in H.
  apply IH in H as [H|[t' H]].
  - destruct c; [left; exact H|]. destruct H as [H|H]; [|left; exact H].
    inversion H; subst. right. exists t. left. reflexivity.
  - right. exists t'. right. exact H.
Qed.

Lemma sputs_mono ps : forall set x, In x set -> In x (sputs set ps).
Proof. induction ps as [|[[m t] c] ps IH]; intros set x H; [exact H|]. cbn. apply IH. destruct c; [exact H|right; exact H]. Qed.

Lemma sputs_put ps : forall set n t b, In (n, t, b) ps -> b <> [] -> In (n, b) (sputs set ps).
Proof.
  induction ps as [|[[m u] c] ps IH]; intros set n t b H Hb; [destruct H|]. cbn. destruct H as [H|H].
  - inversion H; subst. apply sputs_mono. destruct b; [congruence|]. left; reflexivity.
  - eapply IH; eauto.
Qed.

Section Run.
Variable feq8 feq4 : list Z -> list Z -> bool.
Variable add1000 addf1000 : list Z -> list Z.
Variable junk : list Z.
Variable oc : ty.
Notation urun := (urun feq8 feq4 add1000 addf1000 junk oc).
Notation valid := (valid feq8 feq4 add1000 addf1000 oc).

Lemma urun_app a b : forall w, urun w (a ++ b) = bind (urun w a) (fun w' => urun w' b).
Proof. induction a as [|o a IH]; intros w; cbn; auto. destruct (ustep _ _ _ _ _ _ w o); cbn; auto. Qed.

Lemma valid_puts nsize prev T ps rest :
  Forall (fun p => good_put (pname p) (pty p) (snd p) /\ pty p = T (pname p)) ps ->
  forall e set,
  (forall n t b, look e n = Some (t, b) -> n = "corr"%string \/ t = T n) ->
  valid nsize prev (eputs e ps) (sputs set ps) rest ->
  valid nsize prev e set (map toput ps ++ rest).
Proof.
  induction ps as [|[[m t] c] ps IH]; intros F e set HT V; [exact V|].
  inversion F as [|? ? [G1 G2] F2]; subst. cbn [pname pty fst snd] in *. subst t.
  cbn [map app toput valid fst snd]. split; [exact G1|]. split.
  - intros t' b Hl. destruct (HT _ _ _ Hl) as [X|X]; [|exact X]. destruct G1 as (_ & G1 & _). contradiction.
  - apply IH; auto.
    intros n t b. rewrite look_eput. destruct c; [apply HT|]. destruct (String.eqb_spec m n); [|apply HT].
    intros X; inversion X; subst. right; reflexivity.
Qed.

Lemma dataset_puts ps rest : forall e pn, dataset oc e pn (map toput ps ++ rest) = dataset oc (eputs e ps) pn rest.
Proof. induction ps as [|[[m t] c] ps IH]; intros e pn; [reflexivity|]. cbn [map app toput fst snd dataset names]. rewrite IH. reflexivity. Qed.

Lemma names_puts ps rest : forall e pn, names oc e pn (map toput ps ++ rest) = names oc (eputs e ps) pn rest.
Proof. induction ps as [|[[m t] c] ps IH]; intros e pn; [reflexivity|]. cbn [map app toput fst snd dataset names]. rewrite IH. reflexivity. Qed.

Lemma eputs_names ps NS : incl (map pname ps) NS -> forall e, incl (map fst e) NS -> incl (map fst (eputs e ps)) NS.
Proof.
  induction ps as [|[[m t] c] ps IH]; intros H e He; cbn; auto. apply IH.
  - intros x Hx. apply H. right; exact Hx.
  - cbn [pname pty fst snd]. unfold env_put. destruct c; [exact He|]. intros x [<-|Hx]; [apply H; left; reflexivity|auto].
Qed.

Lemma eputs_ty ps T : Forall (fun p => pty p = T (pname p)) ps -> forall e,
  (forall n t b, look e n = Some (t, b) -> n = "corr"%string \/ t = T n) ->
  (forall n t b, look (eputs e ps) n = Some (t, b) -> n = "corr"%string \/ t = T n).
Proof.
  induction ps as [|[[m t] c] ps IH]; intros F e He; [exact He|]. inversion F as [|? ? F1 F2]; subst. cbn [pname pty fst snd] in F1. subst t.
  apply IH; auto. cbn [pname pty fst snd]. intros n t b. rewrite look_eput. destruct c; [apply He|].
  destruct (String.eqb_spec m n); [|apply He]. intros X; inversion X; subst. right; reflexivity.
Qed.

Lemma eputs_U (K : string -> Prop) ps : forall e U,
  (forall n, K n -> option_map snd (look e n) = U n) ->
  forall n, K n -> option_map snd (look (eputs e ps) n) = fold_left assign ps U n.
Proof.
  induction ps as [|[[m t] c] ps IH]; intros e U H n Hn; [apply H; exact Hn|]. cbn. apply IH; [|exact Hn].
  intros n' Hn'. cbn [pname pty fst snd]. rewrite look_eput. unfold assign. cbn [fst snd].
  destruct c; [apply H; exact Hn'|]. destruct (String.eqb m n'); [reflexivity|apply H; exact Hn'].
Qed.

End Run.

(* the copies of a record *)
Definition cputs (tr : list string) (mark : Z) (vs : list rvar) : list put :=
  flat_map (fun v => if (mark <=? v_call v) && mem (v_name v) tr then [(v_name v, v_ty v, obuf (v_buf v))] else []) vs.

Lemma cputs_in tr mark vs p : In p (cputs tr mark vs) <->
  exists v, In v vs /\ mark <= v_call v /\ In (v_name v) tr /\ p = (v_name v, v_ty v, obuf (v_buf v)).
Proof.
  unfold cputs. rewrite in_flat_map. split.
  - intros (v & A & B). exists v. destruct (Z.leb_spec mark (v_call v)); cbn [andb] in B; [|destruct B].
    destruct (mem (v_name v) tr) eqn:M; [|destruct B]. destruct B as [<-|[]]. apply mem_In in M. auto.
  - intros (v & A & B & C & ->). exists v. split; [exact A|]. apply mem_In in C. rewrite C.
    destruct (Z.leb_spec mark (v_call v)); [left; reflexivity|lia].
Qed.

Lemma cputs_names tr mark vs n : In n (map pname (cputs tr mark vs)) -> In n (map v_name vs) /\ In n tr.
Proof.
  intros H. apply in_map_iff in H as (p & <- & H). apply cputs_in in H as (v & A & _ & C & ->). cbn [pname fst].
  split; [apply in_map; exact A|exact C].
Qed.

Lemma cputs_nodup tr mark vs : NoDup (map v_name vs) -> NoDup (map pname (cputs tr mark vs)).
Proof.
  induction vs as [|v vs IH]; intros ND; cbn [cputs flat_map map]; [constructor|]. fold (cputs tr mark vs).
  cbn [map] in ND. inversion ND as [|? ? N1 N2]; subst.
  destruct ((mark <=? v_call v) && mem (v_name v) tr); cbn [app map]; [|apply IH; exact N2].
  constructor; [|apply IH; exact N2]. cbn [pname fst]. intros H. apply N1. apply cputs_names in H. tauto.
Qed.
Section Copy.
Variable feq8 feq4 : list Z -> list Z -> bool.
Variable add1000 addf1000 : list Z -> list Z.
Variable junk : list Z.
Variable oc : ty.
Notation urun := (urun feq8 feq4 add1000 addf1000 junk oc).
Lemma copy_run tr mark vs : forall w, copy_vars tr mark vs w = urun w (map toput (cputs tr mark vs)).
Proof.
  induction vs as [|v vs IH]; intros w; cbn [copy_vars cputs flat_map]; auto. fold (cputs tr mark vs).
  destruct ((mark <=? v_call v) && mem (v_name v) tr); [|apply IH].
  cbn [app map toput fst snd UvModel.urun ustep]. destruct (uvputvr w (v_ty v) (v_name v) (obuf (v_buf v))); cbn; auto.
Qed.
End Copy.

(* ---------- played maps ---------- *)
Lemma pplay_untouched seg i : ~ touched seg i -> forall p, pplay p seg i = p i.
Proof.
  induction seg as [|s seg IH]; intros H p; cbn; auto. unfold pplay in *. cbn [fold_left].
  rewrite IH by (intros (s0 & A & B); apply H; exists s0; split; [right; auto|auto]).
  assert (Hs : ~ match s with SSize j _ => j = i | SData j _ _ => j = i | SEor => False end)
    by (intros X; apply H; exists s; split; [left; auto|auto]).
  destruct s; cbn; auto; unfold set1; destruct (Nat.eqb_spec i0 i); auto; contradiction.
Qed.

Lemma lplay_mono seg i : forall l, l i <> None -> lplay l seg i <> None.
Proof.
  induction seg as [|s seg IH]; intros l H; cbn; auto. unfold lplay in *. cbn [fold_left]. apply IH.
  destruct s; cbn; auto. unfold set1. destruct (Nat.eqb i0 i); [discriminate|exact H].
Qed.

Lemma lplay_touched tys seg i : forall l, wf tys l seg -> touched seg i -> lplay l seg i <> None.
Proof.
  induction seg as [|s seg IH]; intros l W (s0 & A & B); [destruct A|].
  cbn [wf] in W. destruct W as [W1 W2]. unfold lplay in *. cbn [fold_left]. destruct A as [->|A].
  - apply lplay_mono. destruct s0; cbn in *; [| |contradiction].
    + subst. unfold set1. rewrite Nat.eqb_refl. discriminate.
    + subst. destruct W1 as [_ W1]. congruence.
  - apply IH; auto. exists s0; auto.
Qed.

Definition goodl (tys : list ty) (l : lmap) : Prop :=
  forall i len, l i = Some len -> exists t, nth_error tys i = Some t /\ 0 < len < 2147483648 /\ len mod ext t = 0.

Lemma lplay_good tys seg : forall l, goodl tys l -> wf tys l seg -> goodl tys (lplay l seg).
Proof.
  induction seg as [|s seg IH]; intros l G W; cbn; auto. cbn [wf] in W. destruct W as [W1 W2].
  unfold lplay in *. cbn [fold_left]. apply IH; auto.
  intros i len. destruct s; cbn in *; try apply G. unfold set1. destruct (Nat.eqb_spec i0 i); [|apply G].
  intros X; inversion X; subst. exact W1.
Qed.

Lemma goodl_none tys : goodl tys none. Proof. intros i len H; discriminate. Qed.
