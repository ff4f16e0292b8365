(* C71: the header that scripts/apply_bp.py writes. *)
From Coq Require Import String.
From Verif Require Import Base HioModel TreeModel HdrModel HdrProofs3 HcopyModel HcopyProofs FloatModel FloatProofs FloatProps HdrSpec HcopySpec HdrProps HcopyProps BpModel.
Open Scope Z_scope.

(* the header of the new data set: what tells of the bandpass is not in it, everything else is *)
Lemma untouched_state j : forall ops, Forall (fun o => match o with On k _ | InitFrom _ k _ _ | History k _ => k <> j end) ops -> state ops j = no_items j.
Proof.
  intros ops F. unfold state. generalize no_items. induction F as [|o ops H F IH]; intros W; [reflexivity|]. cbn [fold_left]. rewrite IH.
  destruct o as [k o|i k ov ex|k s]; cbn [after]; (destruct (Nat.eqb_spec j k); [congruence|reflexivity]).
Qed.
Theorem C71_header junk bsz ops i j n : (forall e, 0 <= bsz e <= 64) -> all_ok narrow64 widen32 no_items ops -> i <> j ->
  Forall (fun o => match o with On k _ | InitFrom _ k _ _ | History k _ => k <> j end) ops ->
  exists before from,
    w_run narrow64 widen32 junk bsz (fun _ => t_new junk) (ops ++ [InitFrom i j [] ignore_vars; On i (VGet n); On j (VGet n)])
    = before ++ [VDone; from; if in_dec string_dec n ["bandpass"; "freqs"; "ngains"; "nspect0"; "nchan0"; "ntau"; "nfeeds"; "nsols"; "header"; "vartable"]%string then VNone else from].
Proof.
  intros B A NE U. exists (answers narrow64 widen32 no_items ops), (answer narrow64 widen32 (state ops) (On i (VGet n))).
  rewrite C60_headers_ieee; [|exact B|].
  - rewrite answers_app. fold (state ops). f_equal. pose proof (untouched_state j ops U) as UJ. revert UJ. generalize (state ops). intros W UJ.
    cbn [answers answer after after_op]. rewrite !Nat.eqb_refl. destruct (Nat.eqb_spec i j); [congruence|]. do 3 f_equal.
    unfold inherit. rewrite UJ. unfold no_items.
    assert (NM : named n ignore_vars = if in_dec string_dec n ["bandpass"; "freqs"; "ngains"; "nspect0"; "nchan0"; "ntau"; "nfeeds"; "nsols"; "header"; "vartable"]%string then true else false).
    { destruct (in_dec _ _ _) as [I|I]; [apply existsb_exists; exists n; split; [exact I|apply String.eqb_refl]|].
      apply Bool.not_true_iff_false. intros E. apply existsb_exists in E as (m & M & E). apply String.eqb_eq in E. subst m. exact (I M). }
    destruct (Nat.eqb_spec j i); [congruence|]. rewrite NM. destruct (in_dec _ _ _); [reflexivity|]. cbn [given].
    destruct (W i n) as [v|]; [|reflexivity]. now rewrite C07_stored_again.
  - apply all_ok_app; [exact A|]. cbn. repeat split; auto.
Qed.
Print Assumptions C71_header.
