(* C05: an item of a data set behaves as a byte array. *)
From Verif Require Import Base HioModel HioSpec HioProofs HioProofs2.
Ltac Zify.zify_post_hook ::= idtac.

Definition empty_array : array := Arr 0 (fun _ => None).

(* array with known content c 0 .. c (n-1) *)
Definition full_array (c : Z -> Z) (n : Z) : array :=
  Arr n (fun p => if (0 <=? p) && (p <? n) then Some (c p) else None).

Definition access_unit (s : Z) : Prop := s = 1 \/ s = 2 \/ s = 4 \/ s = 8.

(* Newly created item (kept in memory while it has at most 64 bytes, then moved to a file) *)
Theorem C05_new_item_history : forall s junk ops, access_unit s ->
  valid_all s false empty_array ops ->
  expected_all empty_array ops (hrun junk (new_item junk) ops).
Proof.
  intros s junk ops HS HV. apply (history s false junk HS); [| |assumption].
  - right. split; [reflexivity|]. constructor; cbn; try reflexivity; try lia; congruence.
  - split; [reflexivity|]. cbn. congruence.
Qed.

(* Item stored in a file of n bytes *)
Theorem C05_file_item_history : forall s junk c n ops, access_unit s ->
  0 <= n <= 2147483632 ->
  valid_all s true (full_array c n) ops ->
  expected_all (full_array c n) ops (hrun junk (file_item junk c n) ops).
Proof.
  intros s junk c n ops HS Hn HV. apply (history s true junk HS); [| |assumption].
  - left. unfold file_item, BUFSIZE. constructor; isimp; try reflexivity; try assumption; try (unfold LIM; lia).
    + apply Z.divide_0_r.
    + intros _. split; [reflexivity|]. split; [auto|]. intros; lia.
    + left. apply Z.divide_0_r.
  - split; [reflexivity|]. intros p b. cbn [full_array a_bytes a_size].
    destruct ((0 <=? p) && (p <? n)) eqn:E; [|congruence]. intro X. injection X as <-.
    split; [lia|]. rewrite cur_empty by reflexivity. reflexivity.
Qed.

(* Item loaded from the cache of small items *)
Theorem C05_cached_item_history : forall s junk c n ops, access_unit s ->
  0 <= n <= 64 ->
  valid_all s false (full_array c n) ops ->
  expected_all (full_array c n) ops (hrun junk (cached_item junk c n) ops).
Proof.
  intros s junk c n ops HS Hn HV. apply (history s false junk HS); [| |assumption].
  - right. split; [reflexivity|]. unfold cached_item. constructor; isimp; try reflexivity; try assumption; try lia.
  - split; [reflexivity|]. intros p b. cbn [full_array a_bytes a_size].
    destruct ((0 <=? p) && (p <? n)) eqn:E; [|congruence]. intro X. injection X as <-.
    split; [lia|]. unfold cur, cached_item; isimp. rewrite Z.add_0_l, E. f_equal. lia.
Qed.

(* After any valid history, what is written is what a read of the same bytes returns,
   also across closing and reopening, with whatever element sizes. *)
Lemma expected_all_app ops1 : forall A ops2 xs, expected_all A (ops1 ++ ops2) xs ->
  exists xs1 xs2, xs = xs1 ++ xs2 /\ length xs1 = length ops1 /\
    expected_all A ops1 xs1 /\ expected_all (fold_left spec_step ops1 A) ops2 xs2.
Proof.
  induction ops1 as [|o r IH]; intros A ops2 xs H.
  - exists [], xs. repeat split; assumption.
  - destruct xs as [|x xs]; [contradiction|]. destruct H as [H1 H2].
    destruct (IH _ _ _ H2) as [xs1 [xs2 [E [L [H3 H4]]]]].
    exists (x :: xs1), xs2. subst xs. cbn. repeat split; auto.
Qed.

Theorem C05_write_read : forall s junk ops sz a bs sz' j, access_unit s -> bs <> [] ->
  valid_all s false empty_array (ops ++ [HWrite sz a bs; HReopen j; HRead sz' a (Z.of_nat (length bs))]) ->
  last (hrun junk (new_item junk) (ops ++ [HWrite sz a bs; HReopen j; HRead sz' a (Z.of_nat (length bs))])) HErr
  = HBytes bs.
Proof.
  intros s junk ops sz a bs sz' j HS Hne HV.
  pose proof (C05_new_item_history s junk _ HS HV) as H.
  destruct (expected_all_app _ _ _ _ H) as [xs1 [xs2 [E [L [H1 H2]]]]]. rewrite E.
  assert (HVa : 0 <= a).
  { clear -HV. revert HV. generalize empty_array. induction ops as [|o r IH]; intros A HV.
    - destruct HV as [[X _] _]. assumption.
    - destruct HV as [_ HV]. eapply IH. exact HV. }
  destruct xs2 as [|x1 [|x2 [|x3 [|x4 xs4]]]]; try (cbn in H2; tauto).
  destruct H2 as [_ [_ [H2 _]]]. cbn [spec_step expected] in H2.
  assert (Hl : last (xs1 ++ [x1; x2; x3]) HErr = x3).
  { clear. induction xs1 as [|y l IH]; [reflexivity|].
    cbn. destruct (l ++ [x1; x2; x3]) eqn:El; [destruct l; discriminate|]; exact IH. }
  rewrite Hl. destruct bs as [|b0 bs0]; [congruence|]. cbn [spec_put a_size a_bytes] in H2.
  set (bs := b0 :: bs0) in *.
  replace (a + Z.of_nat (length bs) >? _) with false in H2 by (rewrite Z.gtb_ltb; lia).
  destruct H2 as [l [-> [Hlen Hag]]]. f_equal.
  apply (nth_ext _ _ 0 0); [lia|].
  intros k Hk. specialize (Hag (Z.of_nat k) (nth k bs 0)).
  rewrite Nat2Z.id in Hag. apply Hag; [lia|].
  unfold put. replace ((a <=? a + Z.of_nat k) && (a + Z.of_nat k <? a + Z.of_nat (length bs))) with true by lia.
  f_equal. f_equal. lia.
Qed.

(* The hypotheses are met by a history that grows an item from memory to a file, crosses
   a window boundary, rewrites the middle and reopens. *)
Definition ex_ops : list hop :=
  [HWrite 4 0 [1;2;3;4;5;6;7;8]; HRead 8 0 8; HWrite 8 8 (repeat 9 64); HReopen (fun _ => 0);
   HWrite 8 16376 (repeat 7 16); HWrite 8 16 [0;1;2;3;4;5;6;7]; HRead 4 8 24; HRead 4 16376 16; HRead 4 16392 8; HGetSize].
Lemma div_of s n k : n = k * s -> (s | n).
Proof. intro. exists k. assumption. Qed.

Example ex_valid : valid_all 8 false empty_array ex_ops.
Proof.
  unfold ex_ops. cbn [valid_all valid_op spec_step].
  repeat match goal with |- _ /\ _ => split end; try exact I; try (vm_compute; congruence);
  try (match goal with |- (?s | ?n) => let v := eval vm_compute in (n / s) in apply (div_of s n v) end; vm_compute; reflexivity).
  all: try (left; vm_compute; congruence).
  all: try (left; match goal with |- (?s | ?n) => let v := eval vm_compute in (n / s) in apply (div_of s n v) end; vm_compute; reflexivity).
  all: right; split; [discriminate|]; right; first [left; vm_compute; reflexivity | right; split; vm_compute; reflexivity].
Qed.
Example ex_run : hrun (fun _ => 255) (new_item (fun _ => 255)) ex_ops =
  [HOk; HBytes [1;2;3;4;5;6;7;8]; HOk; HOk; HOk; HOk;
   HBytes [9;9;9;9;9;9;9;9;0;1;2;3;4;5;6;7;9;9;9;9;9;9;9;9]; HBytes (repeat 7 16); HEof; HSize 16392].
Proof. vm_compute. reflexivity. Qed.

(* The four-byte type tag of a header item, then doubles *)
Definition ex_tag : list hop :=
  [HWrite 1 0 [0;0;0;5]; HWrite 8 8 (repeat 9 8); HWrite 8 16 (repeat 7 80); HReopen (fun _ => 0); HRead 1 0 4; HRead 8 16 8; HRead 4 0 4].
Example ex_tag_valid : valid_all 8 false empty_array ex_tag.
Proof.
  unfold ex_tag. cbn [valid_all valid_op spec_step].
  repeat match goal with |- _ /\ _ => split end; try exact I; try (vm_compute; congruence);
  try (match goal with |- (?s | ?n) => let v := eval vm_compute in (n / s) in apply (div_of s n v) end; vm_compute; reflexivity).
  all: try (left; match goal with |- (?s | ?n) => let v := eval vm_compute in (n / s) in apply (div_of s n v) end; vm_compute; reflexivity).
  all: try (left; vm_compute; congruence).
  all: try (right; vm_compute; congruence).
  all: right; split; [discriminate|]; right; first [left; vm_compute; reflexivity | right; split; vm_compute; reflexivity].
Qed.
Example ex_tag_run : hrun (fun _ => 255) (new_item (fun _ => 255)) ex_tag =
  [HOk; HOk; HOk; HOk; HBytes [0;0;0;5]; HBytes (repeat 7 8); HBytes [0;0;0;5]].
Proof. vm_compute. reflexivity. Qed.

(* Findings. *)
(* Elements aligned to their own size are not enough: a 4-byte read that moves the
   window to an odd multiple of 4 makes a later 8-byte read straddle its end;
   the value is not delivered. *)
Theorem C05_mixed_alignment_refuted : exists junk c n ops,
  0 <= n <= 2147483632 /\
  (forall o, In o ops -> match o with HRead sz a k => 0 <= a /\ 0 < k /\ (sz | a) /\ (sz | k) /\ In sz [1;2;4;8] | _ => False end) /\
  ~ expected_all (full_array c n) ops (hrun junk (file_item junk c n) ops).
Proof.
  exists (fun _ => 255), (fun _ => 0), 16392, [HRead 4 4 4; HRead 8 16384 8].
  split; [lia|]. split.
  - intros o [<-|[<-|[]]]; (split; [lia|split; [lia|split; [|split; [|cbn; tauto]]]]).
    exists 1; reflexivity. exists 1; reflexivity. exists 2048; reflexivity. exists 1; reflexivity.
  - assert (Er : hrun (fun _ => 255) (file_item (fun _ => 255) (fun _ => 0) 16392) [HRead 4 4 4; HRead 8 16384 8]
                 = [HBytes [0;0;0;0]; HBytes [255;255;255;255;255;255;255;255]]) by (vm_compute; reflexivity).
    rewrite Er. intros [_ [H _]]. cbn [expected full_array a_size a_bytes spec_step] in H.
    change (16384 + 8 >? 16392) with false in H. cbn iota in H.
    destruct H as [l [E [L H]]]. injection E as <-.
    specialize (H 0 0 ltac:(lia) eq_refl). vm_compute in H. discriminate.
Qed.

(* Past 2 GiB a one-byte write inside an existing file fails: hwrite_fill_c works in int. *)
Theorem C05_2GiB_refuted : exists junk c n o,
  0 <= n /\ (exists a b, o = HWrite 1 a [b] /\ 0 <= a < n) /\
  hrun junk (file_item junk c n) [o] = [HErr].
Proof.
  exists (fun _ => 0), (fun _ => 0), 2147483700, (HWrite 1 2147483661 [1]).
  split; [lia|]. split; [exists 2147483661, 1; split; [reflexivity|lia]|]. vm_compute. reflexivity.
Qed.

(* A write that starts more than a window past the end of a reopened small item loses the
   bytes already stored: reading byte 0 back gives something else. *)
Theorem C05_sparse_growth_refuted : exists junk b, 
  hrun junk (new_item junk) [HWrite 1 0 [b]; HReopen junk; HWrite 1 20000 [3]; HRead 1 0 1] <>
  [HOk; HOk; HOk; HBytes [b]].
Proof. exists (fun _ => 0), 77. vm_compute. discriminate. Qed.

(* A zero-length write past byte 64 empties a small item. *)
Theorem C05_empty_write_refuted : exists junk b,
  hrun junk (new_item junk) [HWrite 1 0 [b]; HWrite 1 100 []; HGetSize] = [HOk; HOk; HSize 0].
Proof. exists (fun _ => 0), 77. vm_compute. reflexivity. Qed.

Print Assumptions C05_new_item_history.
Print Assumptions C05_file_item_history.
Print Assumptions C05_cached_item_history.
Print Assumptions C05_write_read.
Print Assumptions C05_mixed_alignment_refuted.
Print Assumptions C05_2GiB_refuted.
Print Assumptions C05_sparse_growth_refuted.
Print Assumptions C05_empty_write_refuted.
