From Coq Require Import String Reals Lra.
From Verif Require Import Base UvModel UvSpec UvProofs UvProofs2 UvProofs3 UvProofs4 UvProofs5 UvProps
  PipeModel PipeSpec PipeProofs PipeProofs2 PipeProofs3 PipeProofs4 PipeProps HdrModel BaselineModel BaselineProps CmdModel CmdSpec CmdProofs CmdProofs2 CmdProofs3 CmdProofs4 CmdProofs5 ScrModel ScrProofs BpModel BpSpec.
Ltac Zify.zify_post_hook ::= idtac.
Open Scope Z_scope.
Local Notation length := List.length.

Section Poly.
Open Scope R_scope.
Lemma horner p x : forall y, fold_left (fun y c => y * x + c) p y = y * x ^ length p + value p x.
Proof. induction p as [|c p IH]; intros y; cbn [fold_left value length pow]; [ring|]. rewrite IH. ring. Qed.
Lemma polyval_value p x : polyval p x = value p x.
Proof. unfold polyval. rewrite horner. ring. Qed.
Lemma value_scale k p x : value (map (fun c => c * k) p) x = k * value p x.
Proof. induction p as [|c p IH]; cbn [map value]; [ring|]. rewrite map_length, IH. ring. Qed.
Lemma value_div p x : value (map (fun c => c / 3) p) x = value p x / 3.
Proof. induction p as [|c p IH]; cbn [map value]; [field|]. rewrite map_length, IH. field. Qed.
Lemma vadd_len a b : length a = length b -> length (vadd a b) = length a.
Proof. revert b. induction a as [|x a IH]; intros [|y b] L; try discriminate; [reflexivity|]. cbn. f_equal. apply IH. now injection L. Qed.
Lemma value_vadd x : forall a b, length a = length b -> value (vadd a b) x = value a x + value b x.
Proof.
  induction a as [|u a IH]; intros [|v b] L; try discriminate; cbn [vadd value]; [ring|]. injection L as L.
  rewrite vadd_len, IH by exact L. rewrite L. ring.
Qed.
Lemma normal_10 p : value p 10 <> 0 -> value (normal p) 10 = 10.
Proof. intros N. unfold normal. rewrite value_scale, polyval_value. field. exact N. Qed.
Lemma normal_len p : length (normal p) = length p.
Proof. apply map_length. Qed.
(* on a real number the complex polynomial is the real one *)
Lemma cpolyval_real p x : cpolyval p (x, 0) = (value p x, 0).
Proof.
  rewrite <- polyval_value. unfold cpolyval, polyval. cbn [fst snd].
  enough (H : forall y, fold_left (fun y c => (fst y * x - snd y * 0 + c, fst y * 0 + snd y * x)) p (y, 0) = (fold_left (fun y c => y * x + c) p y, 0)) by apply H.
  induction p as [|c p IH]; intros y; cbn [fold_left fst snd]; [reflexivity|]. rewrite <- IH. f_equal. f_equal; ring.
Qed.
End Poly.

Section Table.
Context {G : Type} (one : G) (number : Z -> G).
Lemma rows_len m : forall n v, length (@rows G n m v) = n.
Proof. induction n as [|n IH]; intros v; cbn; [reflexivity|]. now rewrite IH. Qed.
Lemma rows_nth m : forall n v i, (i < n)%nat -> nth_error (@rows G n m v) i = Some (firstn m (skipn (i * m) v)).
Proof.
  induction n as [|n IH]; intros v [|i] L; try lia; [reflexivity|]. cbn [rows nth_error]. rewrite IH by lia. f_equal.
  replace (S i * m)%nat with (m + i * m)%nat by lia. f_equal. clear. generalize (i * m)%nat as k. intros k.
  revert v. induction m as [|m IHm]; intros v; [reflexivity|]. destruct v; [now rewrite !skipn_nil|]. cbn [skipn Nat.add]. apply IHm.
Qed.
Lemma reals_spec l v : reals number l = Some v <-> length v = length l /\ forall k e, nth_error l k = Some e -> exists re im, e = ECplx re im /\ nth_error v k = Some (number re).
Proof.
  revert v. induction l as [|e l IH]; intros v; cbn [reals].
  - split; [intros [= <-]; split; [reflexivity|intros [|k] e H; discriminate]|]. intros [L _]. destruct v; [reflexivity|discriminate].
  - split.
    + destruct e as [z|x|re im|s]; try discriminate. destruct (reals number l) as [u|]; [|discriminate]. intros [= <-]. destruct (proj1 (IH u) eq_refl) as [L N].
      split; [cbn; now rewrite L|]. intros [|k] e H; [injection H as <-; eauto|]. cbn in H |- *. apply N, H.
    + intros [L N]. destruct (N 0%nat e eq_refl) as (re & im & -> & V). destruct v as [|a v]; [discriminate|]. injection V as ->.
      rewrite (proj2 (IH v)); [reflexivity|]. split; [now injection L|]. intros k e H. exact (N (S k) e H).
Qed.
Lemma nth_error_block (v : list G) m i c : (c < m)%nat -> nth_error (firstn m (skipn (i * m) v)) c = nth_error v (i * m + c).
Proof.
  intros H. generalize (i * m)%nat as k. intros k. revert v. induction k as [|k IH]; intros v.
  - cbn [skipn Nat.add]. revert v c H. induction m as [|m IHm]; intros v c H; [lia|]. destruct v as [|a v]; [now destruct c|]. destruct c as [|c]; [reflexivity|]. cbn. apply IHm. lia.
  - destruct v as [|a v]; [rewrite skipn_nil, firstn_nil; now destruct c|]. cbn [skipn Nat.add nth_error]. apply IH.
Qed.

(* the table the script uses *)
Definition table_is (t : list (list G)) (n m : nat) (g : nat -> nat -> G) : Prop :=
  length t = n /\ forall i, (i < n)%nat -> exists s, nth_error t i = Some s /\ length s = m /\ forall c, (c < m)%nat -> nth_error s c = Some (g i c).
Lemma held_table item n m g : (0 < m)%nat -> holds number item n m g -> table_is (bandpass one number (Ok (Some item)) n m) n m g.
Proof.
  intros M0 (l & -> & L & H). unfold bandpass.
  assert (A : forall k, (k < length l)%nat -> exists re im, nth_error l k = Some (ECplx re im)).
  { intros k K. assert (E : k = (k / m * m + k mod m)%nat) by (pose proof (Nat.div_mod k m ltac:(lia)); lia).
    destruct (H (k / m)%nat (k mod m)%nat) as (re & im & X & _); [apply Nat.div_lt_upper_bound; lia|apply Nat.mod_upper_bound; lia|]. rewrite <- E in X. eauto. }
  assert (RE : exists v, reals number l = Some v).
  { clear H L. induction l as [|e l IH]; [eexists; reflexivity|]. destruct (A 0%nat ltac:(cbn; lia)) as (re & im & X). injection X as ->. destruct IH as [v E]; [intros k K; exact (A (S k) ltac:(cbn; lia))|].
    cbn [reals]. rewrite E. eexists. reflexivity. }
  destruct RE as [v E]. rewrite E. apply reals_spec in E as [LV N]. rewrite LV, L, Nat.eqb_refl. split; [apply rows_len|].
  intros i I. eexists. split; [apply rows_nth, I|]. split.
  - rewrite firstn_length, skipn_length. nia.
  - intros c C. rewrite nth_error_block by exact C. destruct (H i c I C) as (re & im & X & ->). destruct (N _ _ X) as (re' & im' & Y & Z). injection Y as <- <-. exact Z.
Qed.
Lemma ones_table n m : table_is (repeat (repeat one m) n) n m (fun _ _ => one).
Proof.
  assert (R : forall A (a : A) k q, (q < k)%nat -> nth_error (repeat a k) q = Some a).
  { intros A a. induction k as [|k IH]; intros [|q] Q; try lia; [reflexivity|]. cbn. apply IH. lia. }
  split; [apply repeat_length|]. intros i I. exists (repeat one m). split; [apply R, I|]. split; [apply repeat_length|]. intros c C. apply R, C.
Qed.
Lemma no_table item n m : (forall l, item = Ok (Some (Seq l)) -> length l <> (n * m)%nat \/ exists e, In e l /\ forall re im, e <> ECplx re im) ->
  bandpass one number item n m = repeat (repeat one m) n.
Proof.
  intros H. unfold bandpass. destruct item as [[[e|l|s]|]|]; try reflexivity. destruct (reals number l) as [v|] eqn:E; [|reflexivity].
  apply reals_spec in E as [L N]. destruct (H l eq_refl) as [X|(e & I & X)].
  - rewrite L. apply Nat.eqb_neq in X. rewrite X. reflexivity.
  - exfalso. apply In_nth_error in I as [k K]. destruct (N k e K) as (re & im & -> & _). exact (X re im eq_refl).
Qed.
End Table.

Section Rec.
Variable feq8 feq4 : list Z -> list Z -> bool.
Context {G D : Type} (gmul : G -> G -> G) (fl2int : list Z -> Z) (linear dbl : list Z -> D) (dmul : D -> G -> D) (sgl : D -> list Z).
Hypothesis fl2int_same : forall a b, same4 feq4 a b -> fl2int a = fl2int b.
Hypothesis sgl8 : forall z, length (sgl z) = 8%nat.

Lemma bp_one nsize bp scale n g d o i j : table_is bp n (Z.to_nat nsize) g -> (Z.to_nat i < n)%nat -> (Z.to_nat j < n)%nat ->
  src_row feq8 feq4 nsize d o -> of_pair fl2int mkbl (fst d) i j ->
  exists x y, snd o = RdRec x /\ apply_bp gmul fl2int linear dbl dmul sgl bp scale tt (fst o) x = Ok (tt, Some y) /\ good_out nsize x y /\
   forall y', same_rec feq8 feq4 y y' -> forall c, 0 <= c < r_n y' -> good y' c = good (fst d) c /\
     chan y' c = sgl (dmul (if i =? j then linear (chan (fst d) c) else dbl (chan (fst d) c)) (gmul (gmul (g (Z.to_nat i) (Z.to_nat c)) (g (Z.to_nat j) (Z.to_nat c))) scale)).
Proof.
  intros [TL T] I J S OP. destruct S as (x & X1 & X2 & X3 & X4 & _).
  destruct (ants_read feq8 feq4 fl2int fl2int_same d x i j X2 OP) as (A1 & A2). exists x. unfold apply_bp. rewrite A1, A2.
  destruct (T _ I) as (a & -> & LA & NA). destruct (T _ J) as (b & -> & LB & NB). rewrite bcast_same by congruence. cbn [bind].
  destruct (good_parts _ _ X3 X4) as (Q & C1 & C2 & C3). pose proof (same_rec_data _ _ _ _ X2) as (B1 & B2 & B3).
  set (gs := map (fun p => gmul (fst p) (snd p)) (combine a b)).
  assert (LG : length gs = Z.to_nat nsize) by (unfold gs; rewrite map_length, combine_length; lia).
  rewrite bcast_same by congruence. cbn [bind].
  set (f := fun c h => sgl (dmul (if i =? j then linear c else dbl c) (gmul h scale))).
  set (q := map (fun p => f (fst p) (snd p)) (combine (cells (r_n x) (r_corr x)) gs)).
  assert (LQ : length q = Z.to_nat nsize) by (unfold q; rewrite map_length, combine_length; lia).
  match goal with |- context [map ?h (combine (cells (r_n x) (r_corr x)) gs)] => change (map h (combine (cells (r_n x) (r_corr x)) gs)) with q end.
  rewrite LQ, X4, Nat.eqb_refl.
  assert (Q8 : all8 q) by (apply Forall_forall; intros y Y; apply in_map_iff in Y as (p & <- & _); apply sgl8).
  destruct (new_spectrum feq8 feq4 nsize x q (r_fl x) X3 X4 Q8 LQ C3) as (N1 & N3).
  eexists. split; [exact X1|]. split; [reflexivity|]. split; [exact N1|]. intros y' Y c Hc. destruct (N3 y' Y) as (N4 & N5). rewrite N4 in Hc. destruct (N5 c Hc) as (N6 & N7).
  split; [rewrite N6; unfold good; now rewrite B3|]. rewrite N7.
  assert (CN : (Z.to_nat c < Z.to_nat nsize)%nat) by lia.
  assert (GN : nth_error gs (Z.to_nat c) = Some (gmul (g (Z.to_nat i) (Z.to_nat c)) (g (Z.to_nat j) (Z.to_nat c)))).
  { unfold gs. specialize (NA _ CN). specialize (NB _ CN). revert NA NB. clear. generalize (g (Z.to_nat i) (Z.to_nat c)) (g (Z.to_nat j) (Z.to_nat c)). intros g1 g2. generalize (Z.to_nat c) as k. intros k. revert a b. induction k as [|k IH]; intros [|u a] [|v b]; cbn; try discriminate; [intros [= ->] [= ->]; reflexivity|]. apply IH. }
  unfold q. rewrite (CmdProofs3.zip_nth f _ _ _ [] (gmul (g (Z.to_nat i) (Z.to_nat c)) (g (Z.to_nat j) (Z.to_nat c)))) by lia.
  rewrite (nth_error_nth _ _ _ GN). unfold f. rewrite cells_nth by lia. unfold chan. rewrite B2. reflexivity.
Qed.
End Rec.
