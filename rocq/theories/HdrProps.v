(* C07, C08: header items read back as the values that were assigned. *)
From Verif Require Import Base HioModel TreeModel.
From Coq Require Import String.
From Verif Require Import HdrModel HdrProofs HdrProofs2 HdrProofs3.
From Verif Require Import HdrSpec.
Open Scope Z_scope.
Local Open Scope string_scope.
Local Open Scope list_scope.

(* Every history of uv[name] = value, uv[name], name in uv.items(), and closing and opening again,
   on a new data set, gives what a dictionary of values gives. narrow, widen: C's conversions between
   double and float; junk: uninitialised memory; bsz: the buffer sizes of small items in memory. *)
Theorem C07_header_history : forall narrow widen junk bsz ops,
  (forall x, 0 <= narrow x < 2 ^ 32) -> (forall e, 0 <= bsz e <= 64) -> Forall valid_op ops ->
  v_run narrow widen junk bsz (t_new junk) ops = expected_all narrow widen [] ops.
Proof. intros narrow widen junk bsz ops N B F. apply hdr_history; auto. apply VI_new. Qed.

(* The same read one way: assign, do anything else to other items, close and open any number of
   times, and read: the value is there. *)
Lemma expected_app narrow widen : forall a b D, expected_all narrow widen D (a ++ b) =
  expected_all narrow widen D a ++ expected_all narrow widen (fold_left spec_step a D) b.
Proof. induction a as [|o a IH]; intros b D; cbn; [reflexivity|]. now rewrite IH. Qed.

Lemma vlook_other n : forall a D, Forall (fun o => forall m v, o = VSet m v -> m <> n) a ->
  vlook (fold_left spec_step a D) n = vlook D n.
Proof.
  induction a as [|o a IH]; intros D F; [reflexivity|]. inversion F as [|? ? F1 F2]; subst. cbn [fold_left].
  rewrite IH by assumption. destruct o as [m v|m|m|j s]; cbn [spec_step vlook]; try reflexivity.
  destruct (String.eqb_spec m n); [exfalso; eapply F1; eauto|reflexivity].
Qed.

Theorem C07_set_then_get : forall narrow widen junk bsz before n v between,
  (forall x, 0 <= narrow x < 2 ^ 32) -> (forall e, 0 <= bsz e <= 64) ->
  Forall valid_op before -> ~ own_item n -> val_ok n v -> Forall valid_op between ->
  (forall m w, In (VSet m w) between -> m <> n) ->
  last (v_run narrow widen junk bsz (t_new junk) (before ++ VSet n v :: between ++ [VGet n])) VErr
  = VVal (back narrow widen n v).
Proof.
  intros narrow widen junk bsz before n v between N B F1 O V F2 X.
  rewrite C07_header_history; auto.
  2: { apply Forall_app; split; [assumption|]. constructor; [split; assumption|]. apply Forall_app; split; [assumption|].
       constructor; [exact O|constructor]. }
  rewrite expected_app. cbn [expected_all spec_step]. rewrite expected_app. cbn [expected_all expected].
  rewrite vlook_other.
  2: { apply Forall_forall. intros o Ho m w ->. eapply X; eauto. }
  cbn [vlook]. rewrite String.eqb_refl. rewrite app_comm_cons, app_assoc, last_last. reflexivity.
Qed.

(* What comes back is the value itself, except for sequences of one number and complex numbers
   that single precision cannot hold. *)
Definition survives (narrow widen : Z -> Z) (e : elem) : Prop :=
  match e with ECplx a b => widen (narrow a) = a /\ widen (narrow b) = b | _ => True end.
Theorem C07_back_is_the_value : forall narrow widen n v,
  match v with Scalar e => survives narrow widen e | Seq l => List.length l <> 1%nat /\ Forall (survives narrow widen) l | Text _ => True end ->
  back narrow widen n v = v.
Proof.
  intros narrow widen n v H.
  assert (S : forall e, survives narrow widen e -> stored narrow widen e = e).
  { intros [z|x|a b|s] He; cbn in *; [reflexivity|reflexivity|destruct He as [-> ->]; reflexivity|reflexivity]. }
  destruct v as [e|l|s]; cbn [back]; [now rewrite S| |reflexivity].
  destruct H as [HL HF]. assert (M : map (stored narrow widen) l = l).
  { clear HL. induction HF; cbn; [reflexivity|]. rewrite IHHF, S by assumption. reflexivity. }
  destruct l as [|a [|b l]]; [reflexivity|now elim HL|]. now rewrite M.
Qed.

(* Characters are written in UTF-8: with b, c, d the bits in groups of six. *)
Theorem C07_utf8 : forall a b c d, 0 <= b < 64 -> 0 <= c < 64 -> 0 <= d < 64 ->
  (0 <= a < 128 -> utf8 [a] = [a]) /\
  (2 <= c < 32 -> utf8 [64 * c + d] = [192 + c; 128 + d]) /\
  (0 <= a < 16 -> 0 < a \/ 32 <= c -> utf8 [4096 * a + 64 * c + d] = [224 + a; 128 + c; 128 + d]) /\
  (0 <= a < 8 -> 0 < a \/ 16 <= b -> utf8 [262144 * a + 4096 * b + 64 * c + d] = [240 + a; 128 + b; 128 + c; 128 + d]).
Proof.
  intros a b c d B C D. unfold utf8. cbn [flat_map]. rewrite !app_nil_r. unfold utf8_char.
  assert (M : forall q r m, 0 <= r < m -> (m * q + r) / m = q /\ (m * q + r) mod m = r).
  { intros q r m R. split; [symmetry; apply (Z.div_unique _ _ _ r); [lia|reflexivity]|symmetry; apply (Z.mod_unique _ _ q); [lia|reflexivity]]. }
  repeat split; intros.
  - replace (a <? 128)%Z with true by lia. reflexivity.
  - replace (64 * c + d <? 128)%Z with false by lia. replace (64 * c + d <? 2048)%Z with true by lia.
    destruct (M c d 64 D) as [-> ->]. reflexivity.
  - replace (4096 * a + 64 * c + d <? 128)%Z with false by lia. replace (4096 * a + 64 * c + d <? 2048)%Z with false by lia.
    replace (4096 * a + 64 * c + d <? 65536)%Z with true by lia.
    replace (4096 * a + 64 * c + d) with (64 * (64 * a + c) + d) at 2 3 by lia.
    destruct (M (64 * a + c) d 64 D) as [-> ->]. destruct (M a c 64 C) as [_ ->].
    replace (4096 * a + 64 * c + d) with (4096 * a + (64 * c + d)) by lia. destruct (M a (64 * c + d) 4096 ltac:(lia)) as [-> _]. reflexivity.
  - set (z := 262144 * a + 4096 * b + 64 * c + d). replace (z <? 128)%Z with false by lia. replace (z <? 2048)%Z with false by lia.
    replace (z <? 65536)%Z with false by lia.
    replace (z / 262144) with a by (unfold z; replace (262144 * a + 4096 * b + 64 * c + d) with (262144 * a + (4096 * b + 64 * c + d)) by lia; symmetry; apply M; lia).
    replace (z / 4096) with (64 * a + b) by (unfold z; replace (262144 * a + 4096 * b + 64 * c + d) with (4096 * (64 * a + b) + (64 * c + d)) by lia; symmetry; apply M; lia).
    replace (z / 64) with (64 * (64 * a + b) + c) by (unfold z; replace (262144 * a + 4096 * b + 64 * c + d) with (64 * (64 * (64 * a + b) + c) + d) by lia; symmetry; apply M; lia).
    replace (z mod 64) with d by (unfold z; replace (262144 * a + 4096 * b + 64 * c + d) with (64 * (64 * (64 * a + b) + c) + d) by lia; symmetry; apply M; lia).
    destruct (M a b 64 B) as [_ ->]. destruct (M (64 * a + b) c 64 C) as [_ ->]. reflexivity.
Qed.
Example C07_utf8_case : utf8 [233; 8364; 128512] = [195; 169; 226; 130; 172; 240; 159; 152; 128].
Proof. reflexivity. Qed.

(* An item that holds a value of another type than the one its name stands for is refused. *)
Theorem C07_other_type : forall widen junk n tr tr' k rest,
  match kind n with Some II => k <> 2 | Some ID => k <> 5 | Some IC => k <> 7 | _ => False end ->
  t_get (codes n) tr = (tr', Some ([0; 0; 0; k] ++ rest)) -> Z.of_nat (List.length rest) <= 2147483628 ->
  (forall e, find (codes n) (t_items tr') = Some e -> (List.length rest <= 60)%nat) ->
  uget widen junk n tr = Err.
Proof.
  intros widen junk n tr tr' k rest K G L E. rewrite kind_type in K. unfold uget. destruct (type_of n) as [ty|]; [|contradiction].
  rewrite G. set (d := [0; 0; 0; k] ++ rest).
  assert (LD : zlen d = 4 + Z.of_nat (List.length rest)) by (unfold d, zlen; rewrite app_length; cbn [List.length]; lia).
  destruct (access_read_inv (unit_of ty) junk (codes n) tr' d (unit_SZ ty)) as (plain & I1 & R1); [lia| |].
  { intros e F. specialize (E e F). lia. }
  set (it := access_read _ _ _ _) in *.
  destruct (read_field (unit_of ty) plain junk it d 1 0 [0; 0; 0; k] (unit_SZ ty) I1 R1) as (it1 & E1 & _);
    try apply Z.divide_0_r; try apply Z.divide_1_l; try lia.
  { unfold holdsL, f_off, f_bs. cbn [fst snd]. split; [lia|]. split; [rewrite LD; unfold zlen; cbn [List.length]; lia|].
    intros q Q. unfold zlen in Q. cbn [List.length] in Q. unfold d. rewrite app_nth1 by (cbn [List.length]; lia). reflexivity. }
  change (zlen [0; 0; 0; k]) with 4 in E1.
  destruct ty; try contradiction; cbn [rdhd]; unfold hread_init; rewrite E1;
    destruct (k =? 1)%Z eqn:Q1; destruct (k =? 2)%Z eqn:Q2; destruct (k =? 5)%Z eqn:Q5; destruct (k =? 7)%Z eqn:Q7; try lia; reflexivity.
Qed.
Example C07_other_type_case : uget (fun x => x) (fun _ => 0) "nchan0" (t_set (codes "nchan0") [0; 0; 0; 5; 0; 0; 0; 0; 64; 0; 0; 0; 0; 0; 0; 0] (t_new (fun _ => 0))) = Err.
Proof. vm_compute. reflexivity. Qed.

(* C08: the freqs item: n, then any number of (int, double, double) *)
Fixpoint table (rows : list (Z * Z * Z)) : list elem :=
  match rows with [] => [] | (i, x, y) :: r => EInt i :: EDbl x :: EDbl y :: table r end.
Lemma table_ok rows : Forall (fun r => int_ok (fst (fst r)) /\ dbl_ok (snd (fst r)) /\ dbl_ok (snd r)) rows -> freqs_ok 0 (table rows).
Proof. intros F. induction F as [|[[i x] y] r (H1 & H2 & H3) F IH]; cbn in *; [exact I|]. auto. Qed.
Lemma table_length rows : List.length (table rows) = (3 * List.length rows)%nat.
Proof. induction rows as [|[[i x] y] r IH]; cbn; lia. Qed.

Theorem C08_freqs : forall narrow widen junk bsz before k rows between,
  (forall x, 0 <= narrow x < 2 ^ 32) -> (forall e, 0 <= bsz e <= 64) ->
  Forall valid_op before -> Forall valid_op between -> (forall w, ~ In (VSet "freqs" w) between) ->
  int_ok k -> Forall (fun r => int_ok (fst (fst r)) /\ dbl_ok (snd (fst r)) /\ dbl_ok (snd r)) rows ->
  Z.of_nat (List.length rows) <= 89478484 ->
  last (v_run narrow widen junk bsz (t_new junk) (before ++ VSet "freqs" (Seq (EInt k :: table rows)) :: between ++ [VGet "freqs"])) VErr
  = VVal (Seq (EInt k :: table rows)).
Proof.
  intros narrow widen junk bsz before k rows between N B F1 F2 X K R L. rewrite C07_set_then_get; auto.
  - f_equal. destruct rows as [|[[i x] y] r]; [reflexivity|]. cbn [table back map stored]. do 6 f_equal.
    clear. induction r as [|[[a b] c] r IH]; [reflexivity|]. cbn [table map stored]. now rewrite IH.
  - intros [Y|Y]; discriminate.
  - exists (EInt k), (table rows). split; [reflexivity|]. split; [exact K|]. split; [now apply table_ok|].
    unfold room. rewrite table_length. lia.
  - intros m w Y ->. eapply X; eauto.
Qed.

(* A history that meets the hypotheses: text, scalars, sequences, more than 64 bytes, freqs. *)
Definition ex_narrow (x : Z) : Z := x / 2 ^ 32 mod 2 ^ 32.
Definition ex_widen (x : Z) : Z := x * 2 ^ 32.
Definition ex_long : list elem := map (fun k => EDbl (Z.of_nat k)) (seq 5 12).
Definition ex_ops : list vop :=
  [VGet "nchan0"; VSet "nchan0" (Scalar (EInt (-7))); VSet "history" (Text []); VSet "interval" (Seq ex_long);
   VSet "leakage" (Seq [ECplx (2 ^ 40) (2 ^ 33); ECplx 1 (2 ^ 63)]); VSet "freqs" (Seq (EInt 1 :: table [(4, 5, 6); (7, 8, 9)]));
   VHas "freqs"; VHas "ntau"; VReopen (fun _ => 9) [(codes "vartable", [1]); (codes "obstype", [2])];
   VGet "nchan0"; VGet "history"; VGet "interval"; VGet "leakage"; VGet "freqs";
   VSet "interval" (Seq [EDbl 3]); VSet "history" (Text [104; 105]); VSet "nchan0" (Seq [EInt 1; EInt 2]);
   VReopen (fun _ => 8) [(codes "vislen", [0;0;0;2]); (codes "vartable", [5;6])];
   VGet "interval"; VGet "history"; VGet "nchan0"; VGet "ntau"].
Example ex_valid : Forall valid_op ex_ops.
Proof.
  assert (O : forall n, String.eqb n "vartable" = false -> String.eqb n "obstype" = false -> ~ own_item n).
  { intros n H1 H2 [-> | ->]; discriminate. }
  unfold ex_ops. repeat apply Forall_cons; try apply Forall_nil; cbn [valid_op]; try (apply O; reflexivity);
  try (split; [apply O; reflexivity|hnf]).
  - left. exists (EInt (-7)). split; [reflexivity|]. cbn. unfold int_ok. lia.
  - exists []. split; [reflexivity|]. split; [constructor|]. split; [right; reflexivity|]. unfold room. cbn. lia.
  - right. exists ex_long. split; [reflexivity|]. split; [|unfold room; cbn; lia].
    unfold ex_long. repeat constructor; cbn; lia.
  - right. eexists. split; [reflexivity|]. split; [|unfold room; cbn; lia]. repeat constructor; cbn; lia.
  - exists (EInt 1), (table [(4, 5, 6); (7, 8, 9)]). split; [reflexivity|]. split; [cbn; unfold int_ok; lia|]. split; [|unfold room; cbn; lia].
    apply table_ok. repeat constructor; cbn; lia.
  - cbn; split; [tauto|discriminate].
  - cbn; split; [tauto|discriminate].
  - right. eexists. split; [reflexivity|]. split; [|unfold room; cbn; lia]. repeat constructor; cbn; lia.
  - eexists. split; [reflexivity|]. split; [repeat constructor; lia|]. split; [left; discriminate|]. unfold room. cbn. lia.
  - right. eexists. split; [reflexivity|]. split; [|unfold room; cbn; lia]. repeat constructor; cbn; unfold int_ok; lia.
  - cbn; split; [tauto|discriminate].
  - cbn; split; [tauto|discriminate].
Qed.
Example ex_run : v_run ex_narrow ex_widen (fun _ => 255) (fun _ => 17) (t_new (fun _ => 255)) ex_ops =
  [VNone; VDone; VDone; VDone; VDone; VDone; VBool true; VBool false; VDone;
   VVal (Scalar (EInt (-7))); VVal (Text []); VVal (Seq ex_long);
   VVal (Seq [ECplx (2 ^ 40) (2 ^ 33); ECplx 0 (2 ^ 63)]); VVal (Seq (EInt 1 :: table [(4, 5, 6); (7, 8, 9)]));
   VDone; VDone; VDone; VDone; VVal (Scalar (EDbl 3)); VVal (Text [104; 105]); VVal (Seq [EInt 1; EInt 2]); VNone].
Proof. vm_compute. reflexivity. Qed.
Example ex_range : (forall x, 0 <= ex_narrow x < 2 ^ 32) /\ (forall e : entry, 0 <= 17 <= 64).
Proof. split; intros; [unfold ex_narrow; apply Z.mod_pos_bound; lia|lia]. Qed.

(* Findings: values that do not come back. *)
(* An integer of more than 32 bits is stored without complaint and comes back as another number. *)
Theorem C07_wide_integer_refuted : forall narrow widen,
  v_run narrow widen (fun _ => 0) (fun _ => 17) (t_new (fun _ => 0)) [VSet "nchan0" (Scalar (EInt (2 ^ 31))); VGet "nchan0"]
  = [VDone; VVal (Scalar (EInt (- 2 ^ 31)))].
Proof. intros. vm_compute. reflexivity. Qed.
(* A sequence of one number comes back as the number. *)
Theorem C07_one_element_refuted : forall narrow widen,
  v_run narrow widen (fun _ => 0) (fun _ => 17) (t_new (fun _ => 0)) [VSet "nchan0" (Seq [EInt 5]); VGet "nchan0"]
  = [VDone; VVal (Scalar (EInt 5))].
Proof. intros. vm_compute. reflexivity. Qed.
(* NULs are dropped from text. *)
Theorem C07_nul_refuted : forall narrow widen,
  v_run narrow widen (fun _ => 0) (fun _ => 17) (t_new (fun _ => 0)) [VSet "history" (Text [65; 0; 66]); VGet "history"]
  = [VDone; VVal (Text [65; 66])].
Proof. intros. vm_compute. reflexivity. Qed.
(* Text that is not ASCII is stored in part and cannot be read. *)
Theorem C07_non_ascii_refuted : forall narrow widen,
  v_run narrow widen (fun _ => 0) (fun _ => 17) (t_new (fun _ => 0)) [VSet "history" (Text [65; 233]); VGet "history"]
  = [VDone; VErr].
Proof. intros. vm_compute. reflexivity. Qed.
(* A freqs table must have its count. *)
Theorem C08_empty_refuted : forall narrow widen,
  v_run narrow widen (fun _ => 0) (fun _ => 17) (t_new (fun _ => 0)) [VSet "freqs" (Seq [])] = [VErr].
Proof. intros. vm_compute. reflexivity. Qed.

Print Assumptions C07_header_history.
Print Assumptions C07_set_then_get. Print Assumptions C07_other_type. Print Assumptions C07_utf8.
Print Assumptions C07_back_is_the_value.
Print Assumptions C08_freqs.
Print Assumptions C07_wide_integer_refuted.
Print Assumptions C07_one_element_refuted.
Print Assumptions C07_nul_refuted.
Print Assumptions C07_non_ascii_refuted.
Print Assumptions C08_empty_refuted.
