(* C06: the items of a data set behave as a dictionary, across close and reopen. *)
From Verif Require Import Base TreeModel TreeProofs TreeProofs2.
From Verif Require Import TreeSpec.

(* Every history of setting, reading, deleting and testing items, flushing, and closing
   and reopening gives exactly what a dictionary gives. junk: uninitialised memory. *)
Theorem C06_dataset_history : forall junk ops, valid_all [] ops ->
  t_run (t_new junk) ops = expected_all [] ops.
Proof. intros junk ops HV. apply tree_history; [apply TI_new|assumption]. Qed.

(* The same read one way: at any point, closing and reopening changes nothing. *)
Theorem C06_reopen_invisible : forall junk ops j rest, valid_all [] (ops ++ TReopen j :: rest) ->
  exists xs ys, length xs = length ops /\
    t_run (t_new junk) (ops ++ TReopen j :: rest) = xs ++ TDone :: ys /\
    t_run (t_new junk) (ops ++ rest) = xs ++ ys.
Proof.
  intros junk ops j rest HV. rewrite C06_dataset_history by assumption.
  assert (HV2 : valid_all [] (ops ++ rest)).
  { revert HV. generalize (@nil (key * list Z)) as D.
    induction ops as [|o r IH]; intros D HV; cbn in *; [apply HV|]. destruct HV. split; auto. }
  rewrite C06_dataset_history by assumption.
  clear HV HV2. generalize (@nil (key * list Z)) as D. induction ops as [|o r IH]; intro D.
  - exists [], (expected_all D rest). repeat split.
  - destruct (IH (spec_step D o)) as [xs [ys [L [E1 E2]]]].
    exists (expected D o :: xs), ys. cbn [length app expected_all]. rewrite E1, E2, L. repeat split.
Qed.

Definition ex_ops : list top :=
  [TSet [97;98] [1;2;3]; TSet [99] (repeat 7 64); TSet [100] (repeat 9 65); TReopen (fun _ => 255);
   TGet [97;98]; TSet [97;98] (repeat 5 100); TDelete [99]; TSet [100] [4]; TReopen (fun _ => 254);
   TGet [97;98]; TGet [99]; TGet [100]; TExists [99]; TSet history []; TReopen (fun _ => 253); TGet history;
   TSet history (repeat 8 70); TSet history [1]; TReopen (fun _ => 253); TGet history].
Example ex_valid : valid_all [] ex_ops.
Proof.
  unfold ex_ops. cbn [valid_all valid_op spec_step]. unfold legal_name, legal_data.
  repeat match goal with |- _ /\ _ => split end; try exact I; try discriminate; try (cbn; lia).
  all: try (intros _; discriminate); try (intros X; contradiction X; reflexivity).
  all: intros x Hx; cbn in Hx; repeat (destruct Hx as [Hx|Hx]; [lia|]); contradiction.
Qed.
Example ex_run : t_run (t_new (fun _ => 255)) ex_ops =
  [TDone; TDone; TDone; TDone; TBytes [1;2;3]; TDone; TDone; TDone; TDone;
   TBytes (repeat 5 100); TFail; TBytes [4]; TBool false; TDone; TDone; TBytes []; TDone; TDone; TDone; TBytes [1]].
Proof. vm_compute. reflexivity. Qed.

(* Finding: an item set to the empty string cannot be read back, and is
   lost on close when nothing else changed. *)
Theorem C06_empty_item_refuted : exists junk n, legal_name n /\
  t_run (t_new junk) [TSet n []; TExists n; TGet n] = [TDone; TBool true; TFail] /\
  t_run (t_new junk) [TSet n []; TReopen junk; TExists n] = [TDone; TDone; TBool false].
Proof.
  exists (fun _ => 0), [97]. split; [split; [cbn; lia|split; [intros c [<-|[]]; lia|discriminate]]|].
  split; vm_compute; reflexivity.
Qed.

Print Assumptions C06_dataset_history.
Print Assumptions C06_reopen_invisible.
Print Assumptions C06_empty_item_refuted.
