(* C45: facet_centers visits each facet exactly once. *)
From Coq Require Import Reals Lra Permutation Sorted.
From Verif Require Import Base FacetModel FacetSpec FacetProofs.
Ltac Zify.zify_post_hook ::= idtac.
Open Scope Z_scope.

(* the order is a permutation of 0..n-1, for every n *)
Theorem C45_order n : 1 <= n -> exists l, bit_reverse_order false n = Ok l /\ Permutation l (below n).
Proof. exact (order_perm n). Qed.
(* each value is reversed bit for bit *)
Theorem C45_bit_reverse ns nbits : 0 <= nbits ->
  exists out, bit_reverse false ns nbits = Ok out /\ length out = length ns /\
    forall k, (k < length ns)%nat -> 0 <= nth k out 0 < 2 ^ nbits /\ forall i, 0 <= i < nbits -> Z.testbit (nth k out 0) i = Z.testbit (nth k ns 0) (nbits - 1 - i).
Proof.
  intros B. rewrite bit_reverse_ok. eexists. split; [reflexivity|]. rewrite map_length. split; auto. intros k K.
  rewrite (nth_indep _ 0 (brev nbits 0)) by (rewrite map_length; auto). rewrite (map_nth (brev nbits)). apply brev_bits. auto.
Qed.
(* shuffling in chunks keeps the same values, whatever is drawn and whatever the width *)
Theorem C45_shuffle rnd width l : (forall c k, rnd c k <= k)%nat -> Permutation (local_shuffle rnd width l) l.
Proof. intros R. apply local_perm. auto. Qed.
(* the points are on the unit sphere, evenly spaced from south to north *)
Theorem C45_points n : 1 <= n ->
  exists pts, pack_sphere n = Ok pts /\ length pts = Z.to_nat n /\ NoDup pts /\
    (forall k, 0 <= k < n -> nth_error pts (Z.to_nat k) = Some (facet n k)) /\ Forall unit3 pts.
Proof.
  intros N. rewrite pack_ok by auto. eexists. split; [reflexivity|]. rewrite map_length, seq_length. split; [auto|]. split; [|split].
  - apply FinFun.Injective_map_NoDup; [|apply seq_NoDup]. intros a b E. apply facet_inj in E; lia.
  - intros k K. rewrite (map_nth_error _ _ (seq 0 (Z.to_nat n)) (d := Z.to_nat k)). { rewrite Z2Nat.id by lia. auto. }
    rewrite (nth_error_nth' _ 0%nat) by (rewrite seq_length; lia). rewrite seq_nth by lia. auto.
  - apply Forall_forall. intros p P. apply in_map_iff in P as (k & <- & K). apply in_seq in K. apply facet_unit. lia.
Qed.
(* facet_centers gives every facet once and no other point, whatever is drawn *)
Theorem C45_facet_centers rnd n : 1 <= n -> (forall c k, rnd c k <= k)%nat ->
  exists pts, facet_centers false rnd n = Ok pts /\ Permutation pts (map (facet n) (below n)) /\ NoDup pts /\ Forall unit3 pts.
Proof.
  intros N R. destruct (centers_ok rnd n N R) as (pts & E & P). exists pts. split; auto. split; auto. split.
  - apply (Permutation_NoDup (Permutation_sym P)). apply FinFun.Injective_map_NoDup; [|apply range_nodup]. intros a b X. apply facet_inj in X; lia.
  - apply Forall_forall. intros p I. apply (Permutation_in _ P) in I. apply in_map_iff in I as (k & <- & K). apply range_in in K. apply facet_unit. auto.
Qed.
(* a finding: with numpy 1.10 or later no list of two facets or more is given at all *)
Theorem C45_numpy_refuted rnd n : 2 <= n -> facet_centers true rnd n = Err.
Proof.
  intros N. unfold facet_centers. cbv zeta. assert (E : bit_reverse_order true n = Err); [|rewrite E; auto].
  unfold bit_reverse_order. replace (n <? 1) with false by lia. cbv zeta. rewrite bit_reverse_raises; auto.
  assert (1 <= Z.log2 n); [|lia]. change 1 with (Z.log2 2). apply Z.log2_le_mono. auto.
Qed.
Example C45_case : bit_reverse_order false 5 = Ok [0; 4; 2; 1; 3] /\ local_shuffle (fun _ _ => 0%nat) 2 [0; 1; 2; 3; 4] = [1; 0; 3; 2; 4]
  /\ bit_reverse false [1; 6] 3 = Ok [4; 3].
Proof. vm_compute. auto. Qed.

Print Assumptions C45_order.
Print Assumptions C45_bit_reverse.
Print Assumptions C45_shuffle.
Print Assumptions C45_points.
Print Assumptions C45_facet_centers.
Print Assumptions C45_numpy_refuted.
