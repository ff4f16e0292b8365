(* C21: flatten_prms and reconstruct_prms. *)
From Verif Require Import Base FlatModel FlatSpec FlatProofs.
From Coq Require Import String Permutation.

(* the key list of a dictionary and the values of any dictionary of the same shape give
   the latter back, provided that lists hold at least two values *)
Theorem C21_round_trip {V} (p q : prm V) : same_shape p q -> lists_have 2 q ->
  exists r : prm V, reconstruct (fst (flatten_prms q)) (snd (flatten_prms p)) = Ok r /\ same q r.
Proof. exact (round_trip p q). Qed.

(* any vector of the right length (as a fitting program produces) gives a dictionary that
   flattens to that vector and the same key list *)
Theorem C21_new_values {V} (p : prm V) (vs : list V) : lists_have 1 p -> List.length vs = count p ->
  exists q : prm V, reconstruct vs (snd (flatten_prms p)) = Ok q /\ flatten_prms q = (vs, snd (flatten_prms p)).
Proof. exact (new_values p vs). Qed.

(* a list of one value comes back as a number *)
Theorem C21_single_refuted :
  exists p q : prm nat, reconstruct (fst (flatten_prms p)) (snd (flatten_prms p)) = Ok q /\ ~ same p q.
Proof.
  exists (PDict [("bp_r"%string, PList [1%nat])]). eexists. split; [reflexivity|].
  intros H. inversion H as [| |a b c P S]; subst. apply Permutation_length_1_inv in P. subst.
  inversion S as [|k x y l m S1 S2]; subst. inversion S1.
Qed.
(* an empty list cannot be read back at all, or takes the next parameter's value *)
Theorem C21_empty_refuted :
  (exists p : prm nat, reconstruct (fst (flatten_prms p)) (snd (flatten_prms p)) = Err) /\
  (exists p : prm nat, reconstruct (fst (flatten_prms p)) (snd (flatten_prms p)) =
     Ok (PDict [("a"%string, PNum 7%nat); ("b"%string, PNum 7%nat)]) /\ p = PDict [("a"%string, PList []); ("b"%string, PNum 7%nat)]).
Proof.
  split; [exists (PDict [("a"%string, PList [])]); reflexivity|].
  exists (PDict [("a"%string, PList []); ("b"%string, PNum 7%nat)]). split; reflexivity.
Qed.

Definition ex : prm nat := PDict [("1", PDict [("phsoff", PList [3; 4]); ("amp", PNum 5)]); ("0", PDict [("bp_r", PList [1; 2; 3]); ("amp", PNum 9)]); ("cyg", PNum 8)]%string%nat.
Example ex_ok : lists_have 2 ex /\ same_shape ex ex /\ flatten_prms ex =
  ([9; 1; 2; 3; 5; 3; 4; 8]%nat, KDict [("0", KDict [("amp", KLeaf 0 1); ("bp_r", KLeaf 1 3)]); ("1", KDict [("amp", KLeaf 4 1); ("phsoff", KLeaf 5 2)]); ("cyg", KLeaf 7 1)]%string).
Proof.
  split; [|split; [|vm_compute; reflexivity]].
  - constructor. intros k x H. simpl in H. destruct H as [H|[H|[H|[]]]]; injection H as <- <-; constructor;
    intros k x H; simpl in H; destruct H as [H|[H|[]]]; injection H as <- <-; constructor; simpl; lia.
  - repeat constructor.
Qed.
Print Assumptions C21_round_trip.
Print Assumptions C21_new_values.
Print Assumptions C21_single_refuted.
Print Assumptions C21_empty_refuted.
