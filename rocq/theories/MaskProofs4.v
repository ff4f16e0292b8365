(* Run-length form: reading and writing runs in maskio. *)
From Verif Require Import Base MaskModel MaskSpec MaskProofs1 MaskProofs2 MaskProofs3.
Ltac Zify.zify_post_hook ::= idtac.

Lemma pair_ind (P : list Z -> Prop) : P [] -> (forall s, P [s]) ->
  (forall s e r, P r -> P (s :: e :: r)) -> forall l, P l.
Proof.
  intros H0 H1 H2. fix IH 1. intros [|s [|e r]]; [exact H0|apply H1|apply H2; apply IH].
Qed.

Lemma maximal_wf rs : forall lo n, runs_maximal lo n rs -> runs_wf lo n rs.
Proof.
  induction rs as [|s|s e r IH] using pair_ind; intros lo n H; cbn [runs_maximal runs_wf] in *; auto.
  destruct H as [H1 [H2 [H3 H4]]]. repeat split; try lia. apply IH; exact H4.
Qed.


Lemma in_runs_low rs : forall lo n k, runs_wf lo n rs -> k <= lo -> in_runs rs k = false.
Proof.
  induction rs as [|s|s e r IH] using pair_ind; intros lo n k H Hk; cbn [runs_wf in_runs] in *; auto.
  destruct H as [H1 [H2 [H3 H4]]]. rewrite (IH e n) by (auto; lia). lia.
Qed.

Lemma in_runs_high rs : forall lo n k, runs_wf lo n rs -> n < k -> in_runs rs k = false.
Proof.
  induction rs as [|s|s e r IH] using pair_ind; intros lo n k H Hk; cbn [runs_wf in_runs] in *; auto.
  destruct H as [H1 [H2 [H3 H4]]]. rewrite (IH e n) by (auto; lia). lia.
Qed.

Lemma in_runs_app rs : forall lo n r k, runs_wf lo n rs -> in_runs (rs ++ r) k = in_runs rs k || in_runs r k.
Proof.
  induction rs as [|s|s e r' IH] using pair_ind; intros lo n r k H; cbn [runs_wf in_runs app] in *; auto.
  - contradiction.
  - destruct H as [H1 [H2 [H3 H4]]]. rewrite (IH e n) by auto. rewrite orb_assoc. reflexivity.
Qed.

Lemma maximal_snoc rs : forall lo s e n, runs_maximal lo (s - 2) rs -> lo + 1 < s -> s <= e -> e <= n ->
  runs_maximal lo n (rs ++ [s; e]).
Proof.
  induction rs as [|x|x y r IH] using pair_ind; intros lo s e n H A B C; cbn [runs_maximal app] in *.
  - repeat split; lia.
  - contradiction.
  - destruct H as [H1 [H2 [H3 H4]]]. repeat split; try lia. apply IH; auto; lia.
Qed.

(* maximal run lists are determined by the flags *)
Lemma maximal_unique rs : forall lo n rs', runs_maximal lo n rs -> runs_maximal lo n rs' ->
  (forall k, lo < k <= n -> in_runs rs k = in_runs rs' k) -> rs = rs'.
Proof.
  induction rs as [|s|s e r IH] using pair_ind; intros lo n rs' H H' E.
  - destruct rs' as [|s' [|e' r']]; [reflexivity|destruct H'|].
    destruct H' as [H1 [H2 [H3 H4]]]. specialize (E s' ltac:(lia)). cbn [in_runs] in E.
    replace ((s' <=? s') && (s' <=? e')) with true in E by lia. discriminate.
  - destruct H.
  - destruct H as [H1 [H2 [H3 H4]]].
    destruct rs' as [|s' [|e' r']]; [|destruct H'|].
    { specialize (E s ltac:(lia)). cbn [in_runs] in E.
      replace ((s <=? s) && (s <=? e)) with true in E by lia. discriminate. }
    destruct H' as [G1 [G2 [G3 G4]]].
    pose proof (maximal_wf _ _ _ H4) as W. pose proof (maximal_wf _ _ _ G4) as W'.
    assert (Es : s = s').
    { destruct (Z.lt_trichotomy s s') as [L|[L|L]]; [|exact L|]; exfalso.
      - specialize (E s ltac:(lia)). cbn [in_runs] in E.
        rewrite (in_runs_low r' e' n s W' ltac:(lia)) in E.
        replace ((s <=? s) && (s <=? e)) with true in E by lia.
        replace ((s' <=? s) && (s <=? e')) with false in E by lia. discriminate.
      - specialize (E s' ltac:(lia)). cbn [in_runs] in E.
        rewrite (in_runs_low r e n s' W ltac:(lia)) in E.
        replace ((s <=? s') && (s' <=? e)) with false in E by lia.
        replace ((s' <=? s') && (s' <=? e')) with true in E by lia. discriminate. }
    subst s'.
    assert (Hnx : forall r0 x, runs_maximal x n r0 -> in_runs r0 (x + 1) = false).
    { intros r0 x M. destruct r0 as [|a [|b r0]]; [reflexivity|destruct M|].
      destruct M as [M1 [M2 [M3 M4]]]. cbn [in_runs].
      rewrite (in_runs_low r0 b n) by (try apply maximal_wf; auto; lia). lia. }
    assert (Ee : e = e').
    { destruct (Z.lt_trichotomy e e') as [L|[L|L]]; [|exact L|]; exfalso.
      - specialize (E (e + 1) ltac:(lia)). cbn [in_runs] in E.
        rewrite (Hnx r e H4) in E.
        replace ((s <=? e + 1) && (e + 1 <=? e)) with false in E by lia.
        replace ((s <=? e + 1) && (e + 1 <=? e')) with true in E by lia. discriminate.
      - specialize (E (e' + 1) ltac:(lia)). cbn [in_runs] in E.
        rewrite (Hnx r' e' G4) in E.
        replace ((s <=? e' + 1) && (e' + 1 <=? e)) with true in E by lia.
        replace ((s <=? e' + 1) && (e' + 1 <=? e')) with false in E by lia. discriminate. }
    subst e'. do 2 f_equal. apply (IH e n); auto.
    intros k Hk. specialize (E k ltac:(lia)). cbn [in_runs] in E.
    replace ((s <=? k) && (k <=? e)) with false in E by lia. exact E.
Qed.

(* invariant of the run reader after the flags fl *)
Definition RI (fl : list bool) (s : rstate) : Prop :=
  let n := Z.of_nat (length fl) in
  r_runs s = n /\
  if r_state s then
    exists o a, r_out s = o ++ [a] /\ 1 <= a <= n /\ runs_maximal (-1) (a - 2) o /\
      forall k, 0 <= k < n -> in_runs (o ++ [a; n]) (k + 1) = nth (Z.to_nat k) fl false
  else runs_maximal (-1) (n - 1) (r_out s) /\
       forall k, 0 <= k < n -> in_runs (r_out s) (k + 1) = nth (Z.to_nat k) fl false.

Lemma maximal_weaken rs : forall lo n n', runs_maximal lo n rs -> n <= n' -> runs_maximal lo n' rs.
Proof.
  induction rs as [|s|s e r IH] using pair_ind; intros lo n n' H B; cbn [runs_maximal] in *; auto.
  destruct H as [H1 [H2 [H3 H4]]]. repeat split; try lia. apply (IH e n n'); auto.
Qed.

Lemma nth_snoc (fl : list bool) b k : (k <= length fl)%nat ->
  nth k (fl ++ [b]) false = if (k =? length fl)%nat then b else nth k fl false.
Proof.
  intros H. destruct (k =? length fl)%nat eqn:E.
  - apply Nat.eqb_eq in E. subst. rewrite app_nth2, Nat.sub_diag by lia. reflexivity.
  - apply Nat.eqb_neq in E. apply app_nth1. lia.
Qed.

Lemma RI_step fl s b : RI fl s -> RI (fl ++ [b]) (bit_step s b).
Proof.
  unfold RI. rewrite app_length. cbn [length]. set (n := Z.of_nat (length fl)).
  replace (Z.of_nat (length fl + 1)) with (n + 1) by lia.
  assert (Hn : 0 <= n) by lia.
  intros [H1 H2]. unfold bit_step. destruct (r_state s) eqn:Es.
  - destruct H2 as [o [a [O1 [O2 [O3 O4]]]]].
    assert (W : runs_wf (-1) (a - 2) o) by (apply maximal_wf; exact O3).
    destruct b; cbn [Bool.eqb].
    + cbn [add_runs r_runs r_state r_out]. rewrite Es. split; [lia|].
      exists o, a. split; [exact O1|]. split; [lia|]. split; [exact O3|].
      intros k Hk. rewrite nth_snoc by lia. rewrite (in_runs_app o (-1) (a - 2)) by exact W.
      destruct (Z.to_nat k =? length fl)%nat eqn:E.
      * apply Nat.eqb_eq in E. cbn [in_runs].
        replace ((a <=? k + 1) && (k + 1 <=? n + 1)) with true by lia. apply orb_true_r.
      * apply Nat.eqb_neq in E. rewrite <- O4 by lia.
        rewrite (in_runs_app o (-1) (a - 2)) by exact W. cbn [in_runs].
        f_equal. f_equal. f_equal. lia.
    + cbn [add_runs switch_state r_runs r_state r_out]. rewrite Es. cbn [negb]. split; [lia|].
      rewrite O1, <- app_assoc. cbn [app].
      replace (r_runs s + 0) with n by lia. split.
      * apply maximal_snoc; auto; lia.
      * intros k Hk. rewrite nth_snoc by lia.
        destruct (Z.to_nat k =? length fl)%nat eqn:E.
        -- apply Nat.eqb_eq in E. apply (in_runs_high _ (-1) n); [|lia].
           apply maximal_wf. apply maximal_snoc; auto; lia.
        -- apply Nat.eqb_neq in E. apply O4. lia.
  - destruct H2 as [M1 M2].
    assert (W : runs_wf (-1) (n - 1) (r_out s)) by (apply maximal_wf; exact M1).
    destruct b; cbn [Bool.eqb].
    + cbn [add_runs switch_state r_runs r_state r_out]. rewrite Es. cbn [negb]. split; [lia|].
      exists (r_out s), (n + 1). replace (r_runs s + 1) with (n + 1) by lia.
      split; [reflexivity|]. split; [lia|]. split; [apply (maximal_weaken _ _ (n - 1)); auto; lia|].
      intros k Hk. rewrite nth_snoc by lia. rewrite (in_runs_app _ (-1) (n - 1)) by exact W. cbn [in_runs].
      destruct (Z.to_nat k =? length fl)%nat eqn:E.
      * apply Nat.eqb_eq in E. replace ((n + 1 <=? k + 1) && (k + 1 <=? n + 1)) with true by lia. apply orb_true_r.
      * apply Nat.eqb_neq in E. rewrite <- M2 by lia.
        replace ((n + 1 <=? k + 1) && (k + 1 <=? n + 1)) with false by lia. apply orb_false_r.
    + cbn [add_runs r_runs r_state r_out]. rewrite Es. split; [lia|]. split.
      * apply (maximal_weaken _ _ (n - 1)); auto; lia.
      * intros k Hk. rewrite nth_snoc by lia.
        destruct (Z.to_nat k =? length fl)%nat eqn:E.
        -- apply Nat.eqb_eq in E. apply (in_runs_high _ (-1) (n - 1)); [exact W|lia].
        -- apply Nat.eqb_neq in E. apply M2. lia.
Qed.

Lemma RI_fold fl2 : forall fl1 s, RI fl1 s -> RI (fl1 ++ fl2) (fold_left bit_step fl2 s).
Proof.
  induction fl2 as [|b fl2 IH]; intros fl1 s H.
  - rewrite app_nil_r. exact H.
  - cbn [fold_left]. replace (fl1 ++ b :: fl2) with ((fl1 ++ [b]) ++ fl2) by (rewrite <- app_assoc; reflexivity).
    apply IH. apply RI_step. exact H.
Qed.

Lemma nth_map_seq {A} (d : A) (f : nat -> A) n k : (k < n)%nat -> nth k (map f (seq 0 n)) d = f k.
Proof.
  intros H. rewrite nth_indep with (d' := f 0%nat) by (rewrite map_length, seq_length; lia).
  rewrite map_nth. rewrite seq_nth by lia. reflexivity.
Qed.

Lemma runs_flags_length rs n : length (runs_flags rs n) = Z.to_nat n.
Proof. unfold runs_flags. rewrite map_length, seq_length. reflexivity. Qed.

Lemma runs_flags_nth rs n k : 0 <= k < n -> nth (Z.to_nat k) (runs_flags rs n) false = in_runs rs (k + 1).
Proof. intros H. unfold runs_flags. rewrite nth_map_seq by lia. f_equal. lia. Qed.

Lemma runs_of_spec fl :
  let rs := runs_of fl (Rs false 0 []) in
  runs_maximal (-1) (Z.of_nat (length fl)) rs /\ runs_flags rs (Z.of_nat (length fl)) = fl.
Proof.
  set (n := Z.of_nat (length fl)).
  assert (H : RI fl (fold_left bit_step fl (Rs false 0 []))).
  { apply (RI_fold fl [] (Rs false 0 [])). split; [reflexivity|]. cbn. split; [exact I|intros; lia]. }
  assert (G : let rs := runs_of fl (Rs false 0 []) in
     runs_maximal (-1) n rs /\ forall k, 0 <= k < n -> in_runs rs (k + 1) = nth (Z.to_nat k) fl false).
  { unfold runs_of. set (s := fold_left bit_step fl (Rs false 0 [])) in *.
    destruct H as [H1 H2]. fold n in H1, H2. destruct (r_state s).
    - destruct H2 as [o [a [O1 [O2 [O3 O4]]]]]. cbv zeta. rewrite O1, <- app_assoc. cbn [app]. rewrite H1.
      split; [apply maximal_snoc; auto; lia|exact O4].
    - destruct H2 as [M1 M2]. split; [apply (maximal_weaken _ _ (n - 1)); auto; lia|exact M2]. }
  cbv zeta in *. destruct G as [G1 G2]. split; [exact G1|].
  apply nth_ext with (d := false) (d' := false); [rewrite runs_flags_length; lia|].
  intros k Hk. rewrite runs_flags_length in Hk. rewrite <- (Nat2Z.id k). rewrite runs_flags_nth by lia.
  apply G2. lia.
Qed.

(* ---- writing runs ---- *)
(* flag of (0-based) position k according to a writer that has written c flags *)
Definition denw (s : wstate) (c k : Z) : bool :=
  if k <? c + w_run s then w_state s
  else if w_state s then in_runs (w_rest s) (k + 1)
  else match w_rest s with [] => false | e :: r => (k <? e) || in_runs r (k + 1) end.

Definition WF (N : Z) (s : wstate) (c : Z) : Prop :=
  0 <= w_run s /\ c + w_run s <= N /\
  if w_state s then w_curr s = c + w_run s /\ runs_wf (c + w_run s) N (w_rest s)
  else (w_rest s = [] /\ c + w_run s = N) \/
       exists e r, w_rest s = e :: r /\ w_curr s = c + w_run s /\ c + w_run s < e <= N /\ runs_wf e N r.

Lemma next_run_spec N c : c < N -> forall fuel s, WF N s c -> (length (w_rest s) + 2 <= fuel)%nat ->
  exists s', next_run fuel (N - c) s = Some s' /\ WF N s' c /\ 0 < w_run s' /\
    forall k, c <= k < N -> denw s' c k = denw s c k.
Proof.
  intros HcN. induction fuel as [|fuel IH]; intros s H Hf; [lia|].
  cbn [next_run]. destruct (w_run s =? 0) eqn:E0; cbn [negb].
  2:{ exists s. destruct H as [H1 H2]. split; [reflexivity|]. split; [split; auto|]. split; [lia|reflexivity]. }
  destruct s as [run curr st rest]. destruct H as [H1 [H1b H2]]. cbn [w_run w_curr w_state w_rest] in *.
  assert (run = 0) by lia. subst run. destruct st.
  - destruct H2 as [H2 H3]. destruct rest as [|x r].
    + exists (Ws (N - c) curr (negb true) []). split.
      { destruct fuel; [cbn [length] in Hf; lia|]. cbn [next_run w_run]. replace (N - c =? 0) with false by lia. reflexivity. }
      split.
      { cbn [negb]. split; cbn [w_run w_state w_rest]; [lia|]. split; [lia|]. left. split; [reflexivity|lia]. }
      split; [cbn [w_run]; lia|].
      intros k Hk. unfold denw. cbn [w_run w_state w_rest negb in_runs].
      replace (k <? c + (N - c)) with true by lia. replace (k <? c + 0) with false by lia. reflexivity.
    + destruct r as [|e r]; [destruct H3|]. cbn [runs_wf] in H3. destruct H3 as [W1 [W2 [W3 W4]]].
      edestruct (IH (Ws (x - 1 - curr) (x - 1) (negb true) (e :: r))) as [s' [A1 [A2 [A3 A4]]]].
      { cbn [negb]. split; cbn [w_run w_state w_rest w_curr]; [lia|]. split; [lia|]. right. exists e, r.
        split; [reflexivity|]. split; [lia|]. split; [lia|exact W4]. }
      { cbn [w_rest length] in *. lia. }
      exists s'. split; [exact A1|]. split; [exact A2|]. split; [exact A3|].
      intros k Hk. rewrite A4 by lia. unfold denw. cbn [w_run w_state w_rest negb in_runs].
      replace (k <? c + 0) with false by lia.
      destruct (k <? c + (x - 1 - curr)) eqn:E.
      * rewrite (in_runs_low r e N) by (auto; lia). lia.
      * f_equal. lia.
  - destruct H2 as [[H2 H3]|[e [r [H2 [H3 [H4 H5]]]]]]; [lia|]. subst rest.
    edestruct (IH (Ws (e - 0 - curr) (e - 0) (negb false) r)) as [s' [A1 [A2 [A3 A4]]]].
    { cbn [negb]. split; cbn [w_run w_state w_rest w_curr]; [lia|]. split; [lia|]. split; [lia|].
      replace (c + (e - 0 - curr)) with e by lia. exact H5. }
    { cbn [w_rest length] in *. lia. }
    exists s'. split; [exact A1|]. split; [exact A2|]. split; [exact A3|].
    intros k Hk. rewrite A4 by lia. unfold denw. cbn [w_run w_state w_rest negb].
    replace (k <? c + 0) with false by lia. replace (c + (e - 0 - curr)) with e by lia.
    destruct (k <? e); reflexivity.
Qed.

Lemma mask_range_bits boff blen k : 0 <= boff -> 0 <= blen -> 0 <= k ->
  Z.testbit (Z.lxor (masks (boff + blen)) (masks boff)) k = (boff <=? k) && (k <? boff + blen).
Proof.
  intros H1 H2 Hk. rewrite Z.lxor_spec, !testbit_masks by lia.
  destruct (k <? boff + blen) eqn:A, (k <? boff) eqn:B; lia.
Qed.

Lemma wr_runs_spec N : forall fuel buf w boff len c s,
  0 <= boff < 31 -> 0 <= w -> 0 <= len -> w * 31 + boff + len <= 3968 -> 0 <= c -> c + len <= N ->
  WF N s c -> (Z.to_nat len <= fuel)%nat ->
  exists buf' s', wr_runs fuel buf w boff len (N - c - len) s = Some (buf', s') /\
    WF N s' (c + len) /\ (forall k, c + len <= k < N -> denw s' (c + len) k = denw s c k) /\
    forall p, 0 <= p -> bbit buf' p =
      if (w * 31 + boff <=? p) && (p <? w * 31 + boff + len) then denw s c (c + (p - (w * 31 + boff))) else bbit buf p.
Proof.
  induction fuel as [|fuel IH]; intros buf w boff len c s Hb Hw Hl Hmax Hc HcN HWF Hf.
  - assert (len = 0) by lia. subst len. exists buf, s. cbn [wr_runs]. split; [reflexivity|].
    replace (c + 0) with c by lia. split; [exact HWF|]. split; [reflexivity|].
    intros p Hp. replace ((w * 31 + boff <=? p) && (p <? w * 31 + boff + 0)) with false by lia. reflexivity.
  - cbn [wr_runs]. destruct (len <=? 0) eqn:E0.
    + assert (len = 0) by lia. subst len. exists buf, s. split; [reflexivity|].
      replace (c + 0) with c by lia. split; [exact HWF|]. split; [reflexivity|].
      intros p Hp. replace ((w * 31 + boff <=? p) && (p <? w * 31 + boff + 0)) with false by lia. reflexivity.
    + replace (N - c - len + len) with (N - c) by lia.
      destruct (next_run_spec N c ltac:(lia) (S (length (w_rest s)) + 1) s HWF ltac:(lia)) as [s1 [A1 [A2 [A3 A4]]]].
      rewrite A1. unfold BUFFERSIZE, BPI. replace ((w <? 0) || (w >=? 128)) with false by lia. cbv zeta.
      set (bl := Z.min (w_run s1) (Z.min (31 - boff) len)).
      assert (Hbl : 0 < bl /\ bl <= w_run s1 /\ boff + bl <= 31 /\ bl <= len) by (unfold bl; lia).
      clearbody bl.
      set (s2 := Ws (w_run s1 - bl) (w_curr s1) (w_state s1) (w_rest s1)).
      set (v := if w_state s1 then Z.lor (buf w) (Z.lxor (masks (boff + bl)) (masks boff))
                else Z.land (buf w) (Z.lnot (Z.lxor (masks (boff + bl)) (masks boff)))).
      assert (Hv : forall k, 0 <= k -> Z.testbit v k =
         if (boff <=? k) && (k <? boff + bl) then w_state s1 else Z.testbit (buf w) k).
      { intros k Hk. unfold v. destruct (w_state s1).
        - rewrite Z.lor_spec, mask_range_bits by lia. destruct ((boff <=? k) && (k <? boff + bl)); [apply orb_true_r|apply orb_false_r].
        - rewrite Z.land_spec, Z.lnot_spec, mask_range_bits by lia.
          destruct ((boff <=? k) && (k <? boff + bl)); cbn [negb]; [apply andb_false_r|apply andb_true_r]. }
      assert (W2 : WF N s2 (c + bl)).
      { destruct A2 as [B1 [B2 B3]]. unfold s2. split; cbn [w_run w_state w_curr w_rest]; [lia|]. split; [lia|].
        replace (c + bl + (w_run s1 - bl)) with (c + w_run s1) by lia. exact B3. }
      assert (D2 : forall k, denw s2 (c + bl) k = denw s1 c k).
      { intros k. unfold denw, s2. cbn [w_run w_state w_rest].
        replace (c + bl + (w_run s1 - bl)) with (c + w_run s1) by lia. reflexivity. }
      assert (B' : exists w' boff', (Z.rem (boff + bl) 31) = boff' /\ (if boff' =? 0 then w + 1 else w) = w' /\
                    0 <= boff' < 31 /\ 0 <= w' /\ w' * 31 + boff' = w * 31 + boff + bl).
      { destruct (Z.eq_dec (boff + bl) 31) as [E|E].
        - exists (w + 1), 0. rewrite E. cbn. repeat split; lia.
        - exists w, (boff + bl). rewrite Z.rem_small by lia. replace (boff + bl =? 0) with false by lia. repeat split; lia. }
      destruct B' as [w' [boff' [R1 [R2 [R3 [R4 R5]]]]]].
      rewrite R1, R2.
      edestruct (IH (upd buf w v) w' boff' (len - bl) (c + bl) s2) as [buf' [s' [I1 [I2 [I3 I4]]]]];
        [exact R3|exact R4|lia|lia|lia|lia|exact W2|lia|].
      replace (N - (c + bl) - (len - bl)) with (N - c - len) in I1 by lia.
      replace (c + bl + (len - bl)) with (c + len) in I2, I3 by lia.
      exists buf', s'. split; [exact I1|]. split; [exact I2|]. split.
      * intros k Hk. rewrite I3 by lia. rewrite D2, A4 by lia. reflexivity.
      * intros p Hp. rewrite I4 by lia. rewrite R5.
        destruct ((w * 31 + boff + bl <=? p) && (p <? w * 31 + boff + bl + (len - bl))) eqn:EA.
        -- replace ((w * 31 + boff <=? p) && (p <? w * 31 + boff + len)) with true by lia.
           rewrite D2, A4 by lia. f_equal. lia.
        -- rewrite bbit_upd'. destruct ((31 * w <=? p) && (p <? 31 * w + 31)) eqn:EB.
           ++ rewrite Hv by lia.
              destruct ((boff <=? p - 31 * w) && (p - 31 * w <? boff + bl)) eqn:EC.
              ** replace ((w * 31 + boff <=? p) && (p <? w * 31 + boff + len)) with true by lia.
                 rewrite <- A4 by lia. unfold denw.
                 replace (c + (p - (w * 31 + boff)) <? c + w_run s1) with true by lia. reflexivity.
              ** replace ((w * 31 + boff <=? p) && (p <? w * 31 + boff + len)) with false by lia.
                 symmetry. apply bbit_at. lia.
           ++ replace ((w * 31 + boff <=? p) && (p <? w * 31 + boff + len)) with false by lia. reflexivity.
Qed.

Lemma bit_list_nthZ g a n k : 0 <= k < Z.of_nat n -> nth (Z.to_nat k) (bit_list g a n) false = g (a + k).
Proof. intros H. rewrite bit_list_nth by lia. f_equal. lia. Qed.

Lemma mkwrite_runs_loop_spec N : forall fuel m offset n c s, Inv m -> 31 <= offset ->
  0 <= c -> 0 <= n -> c + n = N -> WF N s c -> (Z.to_nat n <= fuel)%nat ->
  exists m', mkwrite_runs_loop fuel m offset n s = (m', Ret tt) /\ Inv m' /\
    wrote m m' offset (bit_list (denw s c) c (Z.to_nat n)).
Proof.
  induction fuel as [|fuel IH]; intros m offset n c s H Hoff Hc Hn HN HWF Hf.
  { exists m. cbn [mkwrite_runs_loop]. replace (n <=? 0) with true by lia.
    replace (Z.to_nat n) with 0%nat by lia. refine (conj eq_refl (conj H (wrote_nil m offset))). }
  cbn [mkwrite_runs_loop]. destruct (n <=? 0) eqn:E0.
  { exists m. replace (Z.to_nat n) with 0%nat by lia. refine (conj eq_refl (conj H (wrote_nil m offset))). }
  destruct (wr_window_spec m offset H Hoff) as [m1 [W1 [W2 [W3 [W4 [W5 W6]]]]]].
  rewrite W1. cbv zeta. unfold BPI, BUFFERSIZE.
  destruct (split31 (offset - m_off m1)) as [t [r [E [Ht Hr]]]]; [lia|].
  replace (Z.quot (offset - m_off m1) 31) with t by (symmetry; rewrite E; apply quot31; lia).
  set (len := Z.min (31 * 128 - (offset - m_off m1)) n).
  assert (Hlen : 0 < len <= n /\ len <= 3968 - (offset - m_off m1)) by (unfold len; lia).
  clearbody len.
  destruct (wr_runs_spec N (Z.to_nat len) (m_buf m1) t (offset - m_off m1 - t * 31) len c s)
    as [b [s' [B1 [B2 [B3 B4]]]]]; try lia; [exact HWF|].
  replace (N - c - len) with (n - len) in B1 by lia. rewrite B1.
  replace (t * 31 + (offset - m_off m1 - t * 31)) with (offset - m_off m1) in B4 by lia.
  set (fl1 := bit_list (denw s c) c (Z.to_nat len)).
  assert (L1 : length fl1 = Z.to_nat len) by apply bit_list_length.
  assert (B4' : forall p, 0 <= p -> bbit b p = if (offset - m_off m1 <=? p) && (p <? offset - m_off m1 + Z.of_nat (length fl1))
     then nth (Z.to_nat (p - (offset - m_off m1))) fl1 false else bbit (m_buf m1) p).
  { intros p Hp. rewrite B4 by lia. rewrite L1. replace (Z.of_nat (Z.to_nat len)) with len by lia.
    destruct ((offset - m_off m1 <=? p) && (p <? offset - m_off m1 + len)) eqn:Ep; [|reflexivity].
    unfold fl1. rewrite bit_list_nthZ by lia. reflexivity. }
  destruct (store_window m m1 offset b fl1 H Hoff W2 W3 W4 ltac:(lia) W6 ltac:(lia) B4') as [S1 S2].
  rewrite L1 in S1, S2. replace (Z.of_nat (Z.to_nat len)) with len in S1, S2 by lia.
  match goal with |- context [mkwrite_runs_loop fuel ?mm _ _ _] => set (m2 := mm) in * end.
  destruct (IH m2 (offset + len) (n - len) (c + len) s' S1 ltac:(lia) ltac:(lia) ltac:(lia) ltac:(lia) B2 ltac:(lia))
    as [m' [R1 [R2 R3]]].
  exists m'. refine (conj R1 (conj R2 _)).
  replace (Z.to_nat n) with (Z.to_nat len + Z.to_nat (n - len))%nat by lia.
  rewrite bit_list_app. fold fl1. apply (wrote_app m m2 m'); [exact S2|].
  rewrite L1. replace (Z.of_nat (Z.to_nat len)) with len by lia.
  replace (bit_list (denw s c) (c + len) (Z.to_nat (n - len))) with (bit_list (denw s' (c + len)) (c + len) (Z.to_nat (n - len))).
  - exact R3.
  - apply bit_list_ext. intros k Hk. apply B3. lia.
Qed.

Lemma mkwrite_runs_spec m offset n rs : Inv m -> 0 <= offset -> 0 <= n -> runs_wf 0 n rs ->
  exists m', mkwrite_runs m offset n rs = (m', Ret tt) /\ Inv m' /\ wrote m m' (offset + 31) (runs_flags rs n).
Proof.
  intros H Ho Hn Hw. unfold mkwrite_runs, OFFSET.
  destruct (mkwrite_runs_loop_spec n (Z.to_nat n) m (offset + 31) n 0 (Ws 0 0 true rs)) as [m' [R1 [R2 R3]]];
    try lia; [exact H| |].
  { split; cbn [w_run w_state w_curr w_rest]; [lia|]. split; [lia|]. split; [reflexivity|exact Hw]. }
  exists m'. refine (conj R1 (conj R2 _)).
  replace (runs_flags rs n) with (bit_list (denw (Ws 0 0 true rs) 0) 0 (Z.to_nat n)); [exact R3|].
  unfold runs_flags, bit_list. apply map_ext_in. intros k Hk. apply in_seq in Hk.
  unfold denw. cbn [w_run w_state w_rest]. replace (0 + Z.of_nat k <? 0 + 0) with false by lia. reflexivity.
Qed.
