(* C07 with C's own conversions between double and float in place of narrow and widen. *)
From Verif Require Import Base FloatModel FloatProofs HioModel TreeModel.
From Coq Require Import String.
From Verif Require Import HdrModel HdrSpec HdrProps.
Open Scope Z_scope.

Theorem C07_header_history_ieee : forall junk bsz ops,
  (forall e, 0 <= bsz e <= 64) -> Forall valid_op ops ->
  v_run narrow64 widen32 junk bsz (t_new junk) ops = expected_all narrow64 widen32 [] ops.
Proof. intros. apply C07_header_history; auto. apply narrow64_range. Qed.

(* A complex number made of two singles that are not signalling nans comes back as it is. *)
Theorem C07_single_complex : forall n a b, 0 <= a < 2 ^ 32 -> 0 <= b < 2 ^ 32 -> quiet_pattern a -> quiet_pattern b ->
  back narrow64 widen32 n (Scalar (ECplx (widen32 a) (widen32 b))) = Scalar (ECplx (widen32 a) (widen32 b)).
Proof. intros n a b Ha Hb Qa Qb. cbn [back stored]. now rewrite !narrow_widen. Qed.

(* Whatever was read can be stored again and comes back the same. *)
Theorem C07_stored_again : forall n v, back narrow64 widen32 n (back narrow64 widen32 n v) = back narrow64 widen32 n v.
Proof.
  intros n v. assert (S : forall e, stored narrow64 widen32 (stored narrow64 widen32 e) = stored narrow64 widen32 e).
  { intros [z|x|a b|s]; cbn [stored]; rewrite ?stored_once; reflexivity. }
  destruct v as [e|[|e [|e' l]]|s]; try reflexivity.
  - cbn [back]. now rewrite S.
  - cbn [back]. destruct (String.eqb n "freqs") eqn:E; cbn [back]; [now rewrite E|now rewrite S].
  - cbn [back map]. rewrite !S, map_map. do 3 f_equal. apply map_ext. exact S.
Qed.

(* 1.5 and 0.1 and a quiet nan: 1.5 survives, 0.1 is rounded *)
Example ex_single : narrow64 4609434218613702656 = 1069547520 /\ widen32 1069547520 = 4609434218613702656.
Proof. vm_compute. auto. Qed.
Example ex_rounded : widen32 (narrow64 4591870180066957722) = 4591870180174331904.
Proof. vm_compute. reflexivity. Qed.
Example ex_quiet : quiet_pattern 2143289344 /\ quiet_pattern 1069547520.
Proof. split; vm_compute; [discriminate|exact I]. Qed.

Print Assumptions C07_header_history_ieee.
Print Assumptions C07_single_complex.
Print Assumptions C07_stored_again.
