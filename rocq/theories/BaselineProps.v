(* Property theorems for baseline codes (C01, C02, C03, C28). *)
From Verif Require Import Base BaselineModel BaselineProofs.

(* C01 *)
Theorem C01_bl_roundtrip : forall i j, 0 <= i <= 2046 -> 0 <= j <= 2046 ->
  bl2ij (ij2bl i j) = (Z.min i j, Z.max i j).
Proof. exact bl2ij_ij2bl. Qed.
Print Assumptions C01_bl_roundtrip.

Theorem C01_bl_order_free : forall i j, ij2bl i j = ij2bl j i.
Proof. exact ij2bl_sym. Qed.
Print Assumptions C01_bl_order_free.

Theorem C01_bl_injective : forall i j i' j',
  0 <= i <= 2046 -> 0 <= j <= 2046 -> 0 <= i' <= 2046 -> 0 <= j' <= 2046 ->
  ij2bl i j = ij2bl i' j' -> (i = i' /\ j = j') \/ (i = j' /\ j = i').
Proof. exact ij2bl_inj. Qed.
Print Assumptions C01_bl_injective.

(* The range is maximal: antenna 2047 decodes wrongly and collides. MAXIANT is 2048. *)
Theorem C01_bl_2047_refuted : exists i j,
  0 <= i <= 2047 /\ 0 <= j <= 2047 /\ bl2ij (ij2bl i j) <> (Z.min i j, Z.max i j).
Proof. exists 0, 2047. split; [lia|]. split; [lia|]. vm_compute. discriminate. Qed.
Print Assumptions C01_bl_2047_refuted.

Example C01_example : bl2ij (ij2bl 300 7) = (7, 300) /\ bl2ij (ij2bl 254 3) = (3, 254).
Proof. split; reflexivity. Qed.

(* C02: what UV.write stores is what UV.read, the library's own antenna decoder
   (1-based) and bl2ij see, in the order given. *)
Theorem C02_layers_agree : forall i j, 0 <= i <= 2046 -> 0 <= j <= 2046 ->
  geti (mkbl i j) = i /\ getj (mkbl i j) = j /\
  uvbasant (mkbl i j) = (i + 1, j + 1) /\
  bl2ij (mkbl i j) = (i, j) /\
  (i <= j -> mkbl i j = ij2bl i j).
Proof.
  exact (fun i j Hi Hj => conj (proj1 (get_mkbl i j Hi Hj)) (conj (proj2 (get_mkbl i j Hi Hj))
    (conj (uvbasant_mkbl i j Hi Hj) (conj (bl2ij_mkbl i j Hi Hj) (mkbl_ij2bl i j Hi Hj))))).
Qed.
Print Assumptions C02_layers_agree.

Example C02_example : mkbl 1999 254 = 2048 * 2000 + 255 + 65536 /\ geti (mkbl 1999 254) = 1999.
Proof. split; reflexivity. Qed.

(* C03 *)
Theorem C03_blp_roundtrip : forall i j pol,
  0 <= i <= 2046 -> 0 <= j <= 2046 -> -9 <= pol <= 6 ->
  blp2ijp (ijp2blp i j pol) = (Z.min i j, Z.max i j, pol).
Proof. exact blp2ijp_ijp2blp. Qed.
Print Assumptions C03_blp_roundtrip.

Theorem C03_blp_injective : forall i j p i' j' p',
  0 <= i <= j -> j <= 2046 -> -9 <= p <= 6 -> 0 <= i' <= j' -> j' <= 2046 -> -9 <= p' <= 6 ->
  ijp2blp i j p = ijp2blp i' j' p' -> i = i' /\ j = j' /\ p = p'.
Proof.
  intros i j p i' j' p' H1 H2 H3 H4 H5 H6 E.
  assert (A := C03_blp_roundtrip i j p ltac:(lia) ltac:(lia) H3).
  assert (B := C03_blp_roundtrip i' j' p' ltac:(lia) ltac:(lia) H6).
  rewrite E, B in A. injection A as A1 A2 A3. lia.
Qed.
Print Assumptions C03_blp_injective.

Example C03_example : blp2ijp (ijp2blp 300 7 (-8)) = (7, 300, -8).
Proof. reflexivity. Qed.

(* C28: bl_indices lists every baseline of the asked kind exactly once. *)
Theorem C28_bl_indices_exact : forall n auto cross bl,
  In bl (bl_indices n auto cross) <->
  exists i j, 0 <= i /\ i <= j /\ j < n /\ bl = ij2bl i j /\
    ((i = j /\ auto = true) \/ (i < j /\ cross = true)).
Proof. exact in_bl_indices. Qed.
Print Assumptions C28_bl_indices_exact.

Theorem C28_bl_indices_nodup : forall n auto cross, n <= 2047 -> NoDup (bl_indices n auto cross).
Proof. exact nodup_bl_indices. Qed.
Print Assumptions C28_bl_indices_nodup.

Theorem C28_bl_indices_decode : forall n auto cross bl, n <= 2047 ->
  In bl (bl_indices n auto cross) ->
  let '(i, j) := bl2ij bl in 0 <= i /\ i <= j /\ j < n /\ ij2bl i j = bl.
Proof.
  intros n auto cross bl Hn H. apply in_bl_indices in H.
  destruct H as [i [j [H1 [H2 [H3 [E _]]]]]]. subst bl.
  rewrite bl2ij_ij2bl_le by lia. auto.
Qed.
Print Assumptions C28_bl_indices_decode.

Example C28_example : bl_indices 3 true true = [257; 258; 259; 514; 515; 771].
Proof. reflexivity. Qed.
