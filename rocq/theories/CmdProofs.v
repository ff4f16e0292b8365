From Coq Require Import String.
From Verif Require Import Base UvModel UvSpec UvProofs UvProofs2 UvProofs3 UvProofs4 UvProofs5 UvProps
  PipeModel PipeSpec PipeProofs PipeProofs2 PipeProofs3 PipeProofs4 PipeProps CmdModel CmdSpec.
Ltac Zify.zify_post_hook ::= idtac.
Open Scope Z_scope.
Local Notation length := List.length.

Lemma sessions_rewind nsize hs : exists h, sessions nsize hs = (h ++ [RRewind])%list.
Proof.
  unfold sessions. assert (G : forall l : list nat, l <> [] -> exists h, List.concat (map (fun k => repeat (RRead nsize) k ++ [RRewind])%list l) = (h ++ [RRewind])%list).
  { induction l as [|a l IH]; [congruence|]. intros _. cbn [map concat]. destruct l as [|b l].
    - cbn [map concat]. rewrite app_nil_r. eauto.
    - destruct IH as [h E]; [discriminate|]. rewrite E. exists ((repeat (RRead nsize) a ++ [RRewind]) ++ h)%list. now rewrite app_assoc. }
  apply G. discriminate.
Qed.

Section Engine.
Variable feq8 feq4 : list Z -> list Z -> bool.
Variable add1000 addf1000 : list Z -> list Z.
Variable junk : list Z.
Variable nsize : Z.

(* what the function does along the records read: its answers, and whether it went through *)
Section Steps.
Context {St : Type}.
Variable mf : St -> reader -> urec -> res (St * option urec).
Fixpoint steps (s : St) (rs : list (reader * rdres)) : list (option urec) * bool :=
  match rs with
  | (r, RdRec x) :: rest =>
    match mf s r x with
    | Err => ([], false)
    | Ok (s', y) => (y :: fst (steps s' rest), snd (steps s' rest))
    end
  | _ => ([], true)
  end.

Variable outs : list (option urec).
Definition play (k : nat) (r : reader) (x : urec) : list put * option urec := ([], nth k outs None).

Lemma run_loop tr jc jf : forall n fuel r w w' k s out last,
  pipe_loop feq8 feq4 add1000 addf1000 junk TReal play jc jf fuel TReal nsize tr k r w = Ok w' ->
  reads nsize (S n) r = (out ++ [(last, RdEof)])%list -> length out = n ->
  Forall (fun o => exists x, snd o = RdRec x) out ->
  (forall i, (i < length (fst (steps s out)))%nat -> nth (k + i) outs None = nth i (fst (steps s out)) None) ->
  if snd (steps s out) then pipe_run feq8 feq4 add1000 addf1000 junk mf fuel nsize tr s r w = Finished w'
  else exists w'', pipe_run feq8 feq4 add1000 addf1000 junk mf fuel nsize tr s r w = Raised w''.
Proof.
  induction n as [|n IH]; intros fuel r w w' k s out last P R L F O.
  - destruct out; [|discriminate]. cbn [steps snd]. cbn [app] in R. cbn [reads] in R.
    destruct fuel; [discriminate P|]. cbn [pipe_loop] in P. cbn [pipe_run].
    destruct (uvread nsize r) as [r1 a] eqn:E. injection R as -> ->.
    injection P as ->. reflexivity.
  - destruct out as [|[r1 a] out]; [discriminate|]. inversion F as [|? ? [x X] F']; subst. cbn [snd] in X. subst a.
    cbn [app] in R. change (reads nsize (S (S n)) r) with (uvread nsize r :: reads nsize (S n) (fst (uvread nsize r))) in R.
    destruct (uvread nsize r) as [r2 a2] eqn:E. injection R as E1 E2 R. subst r2 a2. cbn [fst] in R.
    destruct fuel; [discriminate P|]. cbn [pipe_loop] in P. cbn [pipe_run]. rewrite E in P. rewrite E. cbn [steps snd fst] in *.
    destruct (mf s r1 x) as [[s' y]|] eqn:M; [|cbn [snd]; eauto].
    cbn [fst snd] in *.
    unfold play in P at 1. cbn [fst map urun bind] in P.
    assert (Y : nth k outs None = y).
    { specialize (O 0%nat). rewrite Nat.add_0_r in O. cbn [nth length] in O. apply O. lia. }
    destruct (copyvr tr r1 w) as [w2|] eqn:C; [|discriminate P]. cbn [bind] in P |- *.
    unfold play in P at 1. cbn [snd] in P. rewrite Y in P.
    destruct (match y with Some y0 => uvwrite feq8 feq4 add1000 addf1000 junk TReal w2 y0 | None => Ok w2 end) as [w3|]; [|discriminate P].
    cbn [bind] in P. eapply IH; [exact P|exact R|cbn in L; congruence|exact F'|].
    intros i Hi. specialize (O (S i)). cbn [length nth] in O. rewrite Nat.add_succ_r in O. apply O. lia.
Qed.
End Steps.

Variable outs : list (option urec).
Definition good_out (x y : urec) : Prop :=
  r_u y = r_u x /\ r_v y = r_v x /\ r_w y = r_w x /\ r_t y = r_t x /\ r_bl y = r_bl x /\ good_rec TReal nsize y /\ r_n y = nsize.

Lemma play_good T trk (rs : list (reader * rdres)) : Forall (fun o => exists x, snd o = RdRec x) rs -> forall prev past k,
  (forall i y, nth (k + i) outs None = Some y -> exists r x, nth_error rs i = Some (r, RdRec x) /\ good_out x y) ->
  good_outs feq8 feq4 TReal (play outs) T trk nsize prev past k rs.
Proof.
  intros F. induction F as [|[r o] rs [x X] F IH]; intros prev past k G; cbn [good_outs]; [exact I|].
  cbn [snd] in X. subst o. unfold play at 1 2. cbn [fst snd]. split; [constructor|].
  assert (GN : forall i y, nth (S k + i) outs None = Some y -> exists r0 x0, nth_error rs i = Some (r0, RdRec x0) /\ good_out x0 y).
  { intros i y H. specialize (G (S i) y). rewrite Nat.add_succ_r in G. exact (G H). }
  destruct (nth k outs None) as [y|] eqn:E; [|apply IH; exact GN].
  specialize (G 0%nat y). rewrite Nat.add_0_r in G. destruct (G E) as (r1 & x1 & E1 & (U1 & U2 & U3 & U4 & U5 & U6 & U7)).
  cbn in E1. injection E1 as -> ->. split; [exact U6|]. split.
  - intros n Hn. left. unfold pre_val, uvw. rewrite U1, U2, U3, U4, U5. reflexivity.
  - apply IH; exact GN.
Qed.

Lemma play_puts (rs : list (reader * rdres)) : Forall (fun o => exists x, snd o = RdRec x) rs -> forall k, put_names (play outs) k rs = [].
Proof. intros F. induction F as [|[r o] rs [x X] F IH]; intros k; cbn [put_names]; [reflexivity|]. cbn [snd] in X; subst o. apply IH. Qed.

Fixpoint kept_rows {A} (k : nat) (ds : list A) : list (A * urec) :=
  match ds with
  | [] => []
  | d :: ds' => match nth k outs None with Some y => (d, y) :: kept_rows (S k) ds' | None => kept_rows (S k) ds' end
  end.

Lemma play_expected U (ds : list (urec * env)) : forall rs, length ds = length rs -> Forall (fun o => exists x, snd o = RdRec x) rs -> forall k,
  Forall2 (fun q e => fst (fst e) = fst q /\ snd (fst e) = snd q /\ snd e = U) (kept_rows k ds) (expected (play outs) U k ds rs).
Proof.
  induction ds as [|d ds IH]; intros [|[r o] rs] L F k; cbn [kept_rows expected]; try constructor; try discriminate L.
  inversion F as [|? ? [x X] F']; subst. cbn [snd] in X. subst o. unfold play at 1 2 3 4. cbn [fst snd fold_left].
  destruct (nth k outs None) as [y|]; [|apply IH; [cbn in L; congruence|exact F']].
  constructor; [auto|]. apply IH; [cbn in L; congruence|exact F'].
Qed.

Lemma kept_rows_in {A} (ds : list A) : forall k q, In q (kept_rows k ds) -> exists i, nth_error ds i = Some (fst q) /\ nth (k + i) outs None = Some (snd q).
Proof.
  induction ds as [|d ds IH]; intros k q; cbn [kept_rows]; [intros []|]. destruct (nth k outs None) as [y|] eqn:E.
  - intros [<-|H].
    + exists 0%nat. rewrite Nat.add_0_r. split; [reflexivity|exact E].
    + destruct (IH _ _ H) as (i & A1 & A2). exists (S i). rewrite Nat.add_succ_r. auto.
  - intros H. destruct (IH _ _ H) as (i & A1 & A2). exists (S i). rewrite Nat.add_succ_r. auto.
Qed.
End Engine.
