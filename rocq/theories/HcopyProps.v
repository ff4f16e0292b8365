(* C60: init_from_uv copies the header items and pipe appends to the history. *)
From Flocq Require Import IEEE754.Binary IEEE754.Bits.
From Verif Require Import Base HioModel TreeModel.
From Coq Require Import String.
From Verif Require Import HdrModel HdrProofs3 HcopyModel HcopyProofs FloatModel FloatProofs FloatProps.
From Verif Require Import HdrSpec HcopySpec.
Open Scope Z_scope.
Local Open Scope string_scope.
Local Open Scope list_scope.

(* Any program of assignments, reads, tests, closing and opening, init_from_uv with any overrides and
   exclusions, and history lines, over any number of new data sets, gives what one dictionary for each
   data set gives, the library's own text items (vartable, obstype) included. *)
Theorem C60_headers : forall narrow widen junk bsz ops,
  (forall x, 0 <= narrow x < 2 ^ 32) -> (forall x, 0 <= x < 2 ^ 32 -> 0 <= widen x < 2 ^ 64) ->
  (forall e, 0 <= bsz e <= 64) -> all_ok narrow widen no_items ops ->
  w_run narrow widen junk bsz (fun _ => t_new junk) ops = answers narrow widen no_items ops.
Proof. intros narrow widen junk bsz ops N Wd B A. apply world_ok; auto. intro i. apply HI_new. Qed.

Lemma widen32_range x : 0 <= x < 2 ^ 32 -> 0 <= widen32 x < 2 ^ 64.
Proof.
  intros _. unfold widen32. destruct (b32_of_bits x) as [s|s|s pl H|s m e H]; cbn [cv64]; try (apply (bits_of_binary_float_range 52 11); reflexivity).
  apply (join_bits_range 52 11); [|lia]. apply nan_pl_lt in H. change (24 - 1) with 23 in H. change (2 ^ 52) with (2 ^ 23 * 2 ^ 29).
  change (2 ^ 23 * 2 ^ 29) with 4503599627370496. change (2 ^ 23) with 8388608 in H. change (2 ^ 29) with 536870912.
  unfold quiet. change (2 ^ 51) with 2251799813685248.
  destruct (Z.ltb_spec (Z.pos pl * 536870912) 2251799813685248); lia.
Qed.

(* with the conversions of IEEE 754 *)
Theorem C60_headers_ieee : forall junk bsz ops, (forall e, 0 <= bsz e <= 64) -> all_ok narrow64 widen32 no_items ops ->
  w_run narrow64 widen32 junk bsz (fun _ => t_new junk) ops = answers narrow64 widen32 no_items ops.
Proof. intros. apply C60_headers; auto; [apply narrow64_range|apply widen32_range]. Qed.

Definition state (ops : list wop) : nat -> hdr := fold_left (after narrow64 widen32) ops no_items.
Lemma answers_app : forall a b W, answers narrow64 widen32 W (a ++ b) =
  answers narrow64 widen32 W a ++ answers narrow64 widen32 (fold_left (after narrow64 widen32) a W) b.
Proof. induction a as [|o a IH]; intros b W; [reflexivity|]. cbn [app answers fold_left]. now rewrite IH. Qed.
Lemma all_ok_app : forall a b W, all_ok narrow64 widen32 W a -> all_ok narrow64 widen32 (fold_left (after narrow64 widen32) a W) b ->
  all_ok narrow64 widen32 W (a ++ b).
Proof. induction a as [|o a IH]; intros b W H1 H2; [exact H2|]. destruct H1 as [H1 H1']. split; [exact H1|]. apply IH; assumption. Qed.

(* After any such program: the copy of an item that is neither excluded nor overridden reads as the
   item of the source does; an overriding value reads as if it had been assigned; what is excluded, or
   not in the source, is left as it was. *)
Theorem C60_copied_item : forall junk bsz ops i j ov ex n, (forall e, 0 <= bsz e <= 64) ->
  all_ok narrow64 widen32 no_items ops -> i <> j -> Forall (fun p => val_ok (fst p) (snd p)) ov ->
  exists before from to,
    w_run narrow64 widen32 junk bsz (fun _ => t_new junk) (ops ++ [On j (VGet n); InitFrom i j ov ex; On i (VGet n); On j (VGet n)])
    = before ++ [to; VDone; from;
        if named n ex then to else match from with
        | VVal v => match given ov n with Some o => VVal (back narrow64 widen32 n o) | None => from end
        | _ => to end].
Proof.
  intros junk bsz ops i j ov ex n B A NE FO. exists (answers narrow64 widen32 no_items ops).
  exists (answer narrow64 widen32 (state ops) (On i (VGet n))), (answer narrow64 widen32 (state ops) (On j (VGet n))).
  rewrite C60_headers_ieee; [|exact B|].
  - rewrite answers_app. fold (state ops). f_equal. generalize (state ops). intro W.
    cbn [answers]. f_equal. cbn [answer after after_op]. rewrite !Nat.eqb_refl.
    destruct (Nat.eqb_spec i j); [congruence|]. destruct (Nat.eqb_spec j i); [congruence|]. destruct (Nat.eqb_spec i j); [congruence|].
    cbn [answer]. f_equal. f_equal. f_equal. unfold inherit. destruct (named n ex); [reflexivity|].
    destruct (W i n) as [v|]; [|reflexivity]. destruct (given ov n); [reflexivity|]. now rewrite C07_stored_again.
  - apply all_ok_app; [exact A|]. cbn. repeat split; auto.
Qed.

(* init_from_uv followed by pipe: the history of the copy is that of the source and the new text. *)
Theorem C60_history : forall junk bsz ops i j s h, (forall e, 0 <= bsz e <= 64) ->
  all_ok narrow64 widen32 no_items ops -> i <> j -> ascii_text s ->
  state ops i "history" = Some (Text h) -> room (List.length h + List.length s) ->
  exists before,
    w_run narrow64 widen32 junk bsz (fun _ => t_new junk) (ops ++ [InitFrom i j [] []; History j s; On j (VGet "history"); On i (VGet "history")])
    = before ++ [VDone; VDone; VVal (Text (h ++ s)); VVal (Text h)].
Proof.
  intros junk bsz ops i j s h B A NE S E R. exists (answers narrow64 widen32 no_items ops).
  rewrite C60_headers_ieee; [|exact B|].
  - rewrite answers_app. fold (state ops). f_equal. revert E. generalize (state ops). intros W E.
    cbn [answers answer after after_op]. rewrite !Nat.eqb_refl. destruct (Nat.eqb_spec i j); [congruence|].
    unfold inherit. cbn [named existsb given]. rewrite E. cbn [back]. reflexivity.
  - apply all_ok_app; [exact A|]. fold (state ops). revert E. generalize (state ops). intros W E.
    cbn [all_ok wop_ok op_ok]. split; [split; [exact NE|constructor]|]. split; [|auto]. split; [exact S|].
    cbn [after]. rewrite Nat.eqb_refl. unfold inherit. cbn [named existsb given]. rewrite E. exact R.
Qed.

(* A program that meets the hypotheses: two copies, an override, an exclusion, closing in between. *)
Definition ex_copy : list wop :=
  [On 0 (VSet "history" (Text [97])); On 0 (VSet "bandpass" (Seq [ECplx 4609434218613702656 4591870180066957722; ECplx 0 0]));
   On 0 (VSet "nchan0" (Scalar (EInt 5))); On 0 (VSet "ntau" (Scalar (EInt 6)));
   On 0 (VReopen (fun _ => 3) [(codes "vartable", [114; 32; 120; 10]); (codes "obstype", [99])]);
   InitFrom 0 1 [("nchan0", Scalar (EInt 7)); ("duration", Scalar (EDbl 1))] ["ntau"]; History 1 [98; 99];
   On 1 (VReopen (fun _ => 4) [(codes "vartable", [114; 32; 121; 10])]);
   InitFrom 1 2 [] [];
   On 2 (VGet "bandpass"); On 0 (VGet "bandpass"); On 2 (VGet "nchan0"); On 2 (VHas "ntau"); On 2 (VGet "history");
   On 2 (VGet "vartable"); On 2 (VGet "obstype"); On 2 (VGet "duration"); History 3 [98]].
Example ex_copy_ok : all_ok narrow64 widen32 no_items ex_copy.
Proof.
  assert (T : forall n s, kind n = Some IA -> ascii_text s -> s <> [] -> room (List.length s) -> val_ok n (Text s)).
  { intros n s K A N R. unfold val_ok. rewrite K. exists s. auto. }
  unfold ex_copy. cbn [all_ok wop_ok op_ok].
  repeat match goal with |- _ /\ _ => split end; auto; try discriminate; try exact I.
  - apply T; [reflexivity|repeat constructor; lia|discriminate|unfold room; cbn; lia].
  - right. eexists. split; [reflexivity|]. split; [repeat constructor; cbn; unfold dbl_ok; lia|unfold room; cbn; lia].
  - left. eexists. split; [reflexivity|]. cbn. unfold int_ok. lia.
  - left. eexists. split; [reflexivity|]. cbn. unfold int_ok. lia.
  - repeat constructor; cbn; try tauto; try discriminate; try lia; unfold room; cbn; lia.
  - apply Forall_cons; [left; eexists; (split; [reflexivity|]); cbn; unfold int_ok; lia|].
    apply Forall_cons; [left; eexists; (split; [reflexivity|]); cbn; unfold dbl_ok; lia|]. constructor.
  - repeat constructor; lia.
  - repeat constructor; cbn; try tauto; try discriminate; try lia; unfold room; cbn; lia.
  - repeat constructor; lia.
Qed.
Example ex_copy_run : skipn 9 (w_run narrow64 widen32 (fun _ => 255) (fun _ => 17) (fun _ => t_new (fun _ => 255)) ex_copy) =
  [VVal (Seq [ECplx 4609434218613702656 4591870180174331904; ECplx 0 0]); VVal (Seq [ECplx 4609434218613702656 4591870180174331904; ECplx 0 0]);
   VVal (Scalar (EInt 7)); VBool false; VVal (Text [97; 98; 99]); VVal (Text [114; 32; 121; 10]); VVal (Text [99]); VNone; VNone].
Proof. vm_compute. reflexivity. Qed.

(* Findings. An override of an item the source does not have is not written: *)
Theorem C60_override_absent_refuted :
  w_run narrow64 widen32 (fun _ => 0) (fun _ => 17) (fun _ => t_new (fun _ => 0))
    [On 0 (VSet "history" (Text [97])); InitFrom 0 1 [("ntau", Scalar (EInt 7))] []; On 1 (VGet "ntau")]
  = [VDone; VDone; VNone].
Proof. vm_compute. reflexivity. Qed.
(* pipe into a data set without history raises, be it excluded or absent from the source: *)
Theorem C60_no_history_refuted :
  w_run narrow64 widen32 (fun _ => 0) (fun _ => 17) (fun _ => t_new (fun _ => 0))
    [On 0 (VSet "history" (Text [97])); InitFrom 0 1 [] ["history"]; History 1 [98]; On 1 (VHas "history")]
  = [VDone; VDone; VNone; VBool false].
Proof. vm_compute. reflexivity. Qed.

Print Assumptions C60_headers.
Print Assumptions C60_headers_ieee.
Print Assumptions C60_copied_item.
Print Assumptions C60_history.
Print Assumptions C60_override_absent_refuted.
Print Assumptions C60_no_history_refuted.
