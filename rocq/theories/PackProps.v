(* C04: number codecs of the file format are lossless and big-endian. *)
From Verif Require Import Base PackModel PackSpec PackProofs.

(* The bytes on disk are the big-endian digits. *)
Theorem C04_disk_bytes : forall vs,
  pack16_c (length vs) (array_mem 4 vs) = Ok (concat (map (be_bytes 2) vs)) /\
  pack32_c (length vs) (array_mem 4 vs) = Ok (concat (map (be_bytes 4) vs)) /\
  packr_c  (length vs) (array_mem 4 vs) = Ok (concat (map (be_bytes 4) vs)) /\
  pack64_c (length vs) (array_mem 8 vs) = Ok (concat (map (be_bytes 8) vs)) /\
  packd_c  (length vs) (array_mem 8 vs) = Ok (concat (map (be_bytes 8) vs)).
Proof.
  exact (fun vs => conj (pack16_array vs) (conj (rev4_array vs) (conj (rev4_array vs)
    (conj (rev8_array vs) (rev8_array vs))))).
Qed.
Print Assumptions C04_disk_bytes.

(* Integers written and read are equal; int16: after reduction modulo 2^16. *)
Theorem C04_int32_roundtrip : forall vs, Forall (fits_signed 4) vs ->
  exists d m, pack32_c (length vs) (array_mem 4 vs) = Ok d /\
    unpack32_c (length vs) d = Ok m /\ read_signed 4 (length vs) m = vs.
Proof.
  intros vs H. exists (concat (map (be_bytes 4) vs)), (array_mem 4 vs).
  split; [apply rev4_array|]. split; [apply unpack32_be|].
  apply read_signed_array; [lia|exact H].
Qed.
Print Assumptions C04_int32_roundtrip.

Theorem C04_int64_roundtrip : forall vs, Forall (fits_signed 8) vs ->
  exists d m, pack64_c (length vs) (array_mem 8 vs) = Ok d /\
    unpack64_c (length vs) d = Ok m /\ read_signed 8 (length vs) m = vs.
Proof.
  intros vs H. exists (concat (map (be_bytes 8) vs)), (array_mem 8 vs).
  split; [apply rev8_array|]. split; [apply unpack64_be|].
  apply read_signed_array; [lia|exact H].
Qed.
Print Assumptions C04_int64_roundtrip.

Theorem C04_int16_roundtrip : forall vs,
  exists d m, pack16_c (length vs) (array_mem 4 vs) = Ok d /\
    unpack16_c (length vs) d = Ok m /\
    read_signed 4 (length vs) m = map wrap16 vs /\
    (Forall (fits_signed 2) vs -> map wrap16 vs = vs).
Proof.
  intros vs. exists (concat (map (be_bytes 2) vs)), (array_mem 4 (map wrap16 vs)).
  split; [apply pack16_array|]. split; [apply unpack16_be|]. split.
  - rewrite <- (map_length wrap16 vs). apply read_signed_array; [lia|].
    apply Forall_forall. intros x Hx. apply in_map_iff in Hx. destruct Hx as [v [<- _]].
    pose proof (wrap16_fits v) as F. unfold fits_signed in *. simpl in *. lia.
  - intros H. induction H as [|v vs Hv Hvs IH]; [reflexivity|]. simpl.
    rewrite wrap16_id by exact Hv. f_equal. exact IH.
Qed.
Print Assumptions C04_int16_roundtrip.

(* float32/float64: the bit patterns come back, whatever they are (NaNs included). *)
Theorem C04_float_bits_roundtrip : forall n s,
  (length s = 4 * n)%nat ->
  (forall t, packr_c n s = Ok t -> unpackr_c n t = Ok s) /\ (exists t, packr_c n s = Ok t).
Proof.
  intros n s L. split.
  - intros t H. unfold unpackr_c, packr_c in *. rewrite (rev4_rev4 _ _ _ H).
    f_equal. apply firstn_all2. lia.
  - revert s L. induction n as [|n IH]; intros s L; [exists []; reflexivity|].
    destruct s as [|s0 [|s1 [|s2 [|s3 s']]]]; simpl in L; try lia.
    destruct (IH s' ltac:(lia)) as [t Ht]. unfold packr_c in *. cbn [rev4]. rewrite Ht.
    eexists. reflexivity.
Qed.
Print Assumptions C04_float_bits_roundtrip.

Theorem C04_double_bits_roundtrip : forall n s,
  (length s = 8 * n)%nat ->
  (forall t, packd_c n s = Ok t -> unpackd_c n t = Ok s) /\ (exists t, packd_c n s = Ok t).
Proof.
  intros n s L. split.
  - intros t H. unfold unpackd_c, packd_c in *. rewrite (rev8_rev8 _ _ _ H).
    f_equal. apply firstn_all2. lia.
  - revert s L. induction n as [|n IH]; intros s L; [exists []; reflexivity|].
    destruct s as [|s0 [|s1 [|s2 [|s3 [|s4 [|s5 [|s6 [|s7 s']]]]]]]]; simpl in L; try lia.
    destruct (IH s' ltac:(lia)) as [t Ht]. unfold packd_c in *. cbn [rev8]. rewrite Ht.
    eexists. reflexivity.
Qed.
Print Assumptions C04_double_bits_roundtrip.

(* Values outside 16 bits are silently changed. *)
Theorem C04_int16_overflow_refuted : exists v, fits_signed 4 v /\
  exists d m, pack16_c 1 (array_mem 4 [v]) = Ok d /\ unpack16_c 1 d = Ok m /\
    read_signed 4 1 m <> [v].
Proof.
  exists 40000. split; [unfold fits_signed; simpl; lia|].
  exists [156; 64], [64; 156; 255; 255].
  split; [reflexivity|]. split; [reflexivity|]. vm_compute. discriminate.
Qed.
Print Assumptions C04_int16_overflow_refuted.

Example C04_example :
  Forall (fits_signed 4) [-2147483648; -1; 0; 305419896; 2147483647] /\
  pack32_c 1 (array_mem 4 [305419896]) = Ok [18; 52; 86; 120].
Proof. split; [repeat constructor; unfold fits_signed; simpl; lia|reflexivity]. Qed.
